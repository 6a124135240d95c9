(** Model of the vector helpers of src/FitUtils.cxx (lines 243-502).

    Vectors live in a numbered store, so that the output range may be one of the
    input ranges (FitUtils.cxx:1600 does this).  Ranges are whole vectors;
    partially overlapping ranges are not modelled.  Element types and operations
    are arbitrary: [T] float, [D] double.  A call returns the store it leaves
    behind and whether it threw. *)
From Verif Require Import Base.

Definition store (T : Type) := nat -> list T.
Definition sset {T} (e : store T) (k : nat) (l : list T) : store T :=
  fun j => if j =? k then l else e j.

Section Vec.
Context {T D : Type}.

(** The loops of FitUtils.cxx:285-287, 310-312, 334-336: read both inputs at the
    running position, write the output there. *)
Fixpoint zip_loop (op : T -> T -> T) (e : store T) (a b o : nat) (i n : nat) : outcome (store T) :=
  match n with
  | 0 => Ok e
  | S n' =>
      obind (vec_get (e a) i) (fun x => obind (vec_get (e b) i) (fun y =>
      obind (vec_set (e o) i (op x y)) (fun l =>
      zip_loop op (sset e o l) a b o (S i) n')))
  end.

(** Size check and loop shared by the three functions. *)
Definition zip_call (op : T -> T -> T) (e : store T) (a b o : nat) : outcome (store T * bool) :=
  if negb (length (e a) =? length (e b)) || negb (length (e a) =? length (e o)) then Ok (e, true)
  else obind (zip_loop op e a b o 0 (length (e a))) (fun e' => Ok (e', false)).

(** FitUtils.cxx:265-289. *)
Definition vectorAdd (add mul : T -> T -> T) (e : store T) (a b o : nat) (fact1 fact2 : T) :=
  zip_call (fun x y => add (mul fact1 x) (mul fact2 y)) e a b o.
(** FitUtils.cxx:291-313. *)
Definition vectorMultiply (mul : T -> T -> T) (e : store T) (a b o : nat) := zip_call mul e a b o.
(** FitUtils.cxx:315-337. *)
Definition vectorSubtract (sub : T -> T -> T) (e : store T) (a b o : nat) := zip_call sub e a b o.

(** FitUtils.cxx:339-345; [mulS] is [float *= double]. *)
Fixpoint scale_loop (f : T -> T) (e : store T) (o i n : nat) : outcome (store T) :=
  match n with
  | 0 => Ok e
  | S n' => obind (vec_get (e o) i) (fun x => obind (vec_set (e o) i (f x)) (fun l =>
            scale_loop f (sset e o l) o (S i) n'))
  end.
Definition multiplyByScalar (mulS : T -> D -> T) (e : store T) (o : nat) (scalar : D) : outcome (store T) :=
  scale_loop (fun x => mulS x scalar) e o 0 (length (e o)).
(** FitUtils.cxx:256-263. *)
Definition setVectorValue (v : T) (e : store T) (o : nat) : outcome (store T) :=
  scale_loop (fun _ => v) e o 0 (length (e o)).

(** FitUtils.cxx:243-254: sum in double, converted at the end. *)
Definition sumVector (zero : D) (acc : D -> T -> D) (conv : D -> T) (l : list T) : T :=
  conv (fold_left acc l zero).

(** FitUtils.cxx:347-366: inner product of two ranges; [Throw] leaves the output value alone. *)
Fixpoint ip2_loop (acc : D -> T -> D) (mul : T -> T -> T) (l1 l2 : list T) (s : D) : outcome D :=
  match l1, l2 with
  | x :: l1', y :: l2' => ip2_loop acc mul l1' l2' (acc s (mul x y))
  | [], _ => Ok s
  | _ :: _, [] => UB
  end.
Definition innerProduct2 (zero : D) (acc : D -> T -> D) (conv : D -> T) (mul : T -> T -> T)
    (l1 l2 : list T) : outcome T :=
  if negb (length l1 =? length l2) then Throw
  else obind (ip2_loop acc mul l1 l2 zero) (fun s => Ok (conv s)).

(** FitUtils.cxx:368-392. *)
Fixpoint ip3_loop (acc : D -> T -> D) (mul : T -> T -> T) (l1 l2 l3 : list T) (s : D) : outcome D :=
  match l1, l2, l3 with
  | x :: l1', y :: l2', z :: l3' => ip3_loop acc mul l1' l2' l3' (acc s (mul (mul x y) z))
  | [], _, _ => Ok s
  | _, _, _ => UB
  end.
Definition innerProduct3 (zero : D) (acc : D -> T -> D) (conv : D -> T) (mul : T -> T -> T)
    (l1 l2 l3 : list T) : outcome T :=
  if negb (length l1 =? length l2) || negb (length l1 =? length l3) then Throw
  else obind (ip3_loop acc mul l1 l2 l3 zero) (fun s => Ok (conv s)).

(** FitUtils.cxx:394-424. *)
Fixpoint ip4_loop (acc : D -> T -> D) (mul : T -> T -> T) (l1 l2 l3 l4 : list T) (s : D) : outcome D :=
  match l1, l2, l3, l4 with
  | x :: l1', y :: l2', z :: l3', w :: l4' => ip4_loop acc mul l1' l2' l3' l4' (acc s (mul (mul (mul x y) z) w))
  | [], _, _, _ => Ok s
  | _, _, _, _ => UB
  end.
Definition innerProduct4 (zero : D) (acc : D -> T -> D) (conv : D -> T) (mul : T -> T -> T)
    (l1 l2 l3 l4 : list T) : outcome T :=
  if negb (length l1 =? length l2) || negb (length l1 =? length l3) || negb (length l1 =? length l4) then Throw
  else obind (ip4_loop acc mul l1 l2 l3 l4 zero) (fun s => Ok (conv s)).

(** FitUtils.cxx:486-502: row [i] is resized to [n_j] and overwritten, so the
    old content of the destination does not matter. *)
Fixpoint read_row (l : list T) (idx n : nat) : outcome (list T) :=
  match n with
  | 0 => Ok []
  | S n' => obind (vec_get l idx) (fun x => obind (read_row l (S idx) n') (fun r => Ok (x :: r)))
  end.
Fixpoint read_rows (l : list T) (idx n_i n_j : nat) : outcome (list (list T)) :=
  match n_i with
  | 0 => Ok []
  | S n' => obind (read_row l idx n_j) (fun r =>
            obind (read_rows l (idx + n_j) n' n_j) (fun rs => Ok (r :: rs)))
  end.
Definition reshapeVector (l : list T) (n_i n_j : nat) : outcome (list (list T)) :=
  if negb (length l =? n_i * n_j) then Throw else read_rows l 0 n_i n_j.

End Vec.

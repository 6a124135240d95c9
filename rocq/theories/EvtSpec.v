(** For C27, C28, C53, C54. *)
From Coq Require Import Reals String.
From Verif Require Import Base AccumModel AccumProofs EvtModel.
Local Open Scope nat_scope.

(** ** Energy bins *)
(** Energy x lies in bin i: closed below, open above, but the last one closed above too. *)
Definition in_bin (eb : list R) (i : nat) (x : R) : Prop :=
  S i < length eb /\ (nth i eb 0 <= x)%R /\ ((x < nth (S i) eb 0)%R \/ (S (S i) = length eb /\ x = nth (S i) eb 0%R)).
Definition increasing (eb : list R) : Prop := forall i j, i < j -> j < length eb -> (nth i eb 0 < nth j eb 0)%R.
(** What an event adds: 1, or its probability to be of the source. *)
Definition share (src : option Z) (e : nevent) : R := match src with Some s => (ne_flux e s / ne_sum e)%R | None => 1%R end.
(** The events of a list for which [P] holds. *)
Inductive selection {A} (P : A -> Prop) : list A -> list A -> Prop :=
| sel_nil : selection P [] []
| sel_yes a l l' : P a -> selection P l l' -> selection P (a :: l) (a :: l')
| sel_no a l l' : ~ P a -> selection P l l' -> selection P (a :: l) l'.

(** ** Column names *)
(** The distinct names of a list, in the order of their first appearance. *)
Fixpoint firsts (seen l : list string) : list string :=
  match l with
  | [] => []
  | x :: l' => if existsb (String.eqb x) seen then firsts seen l' else x :: firsts (seen ++ [x]) l'
  end.

(** ** Event files *)
(** The names in use come first, each once, then unused ones, and each has its column; columns have one value per row. *)
Definition tidy (E : list string) (f : ft1) : Prop :=
  (exists k, f_hdr f = (E ++ repeat "NONE"%string k)%list) /\ NoDup E /\ ~ In "NONE"%string E /\
  (forall i, i < length (f_hdr f) -> tfind ("DIFRSP" ++ decimal i)%string (f_cols f) <> None) /\
  forall k c, tfind k (f_cols f) = Some c -> length c = f_rows f.

(** Model of Likelihood/Accumulator.h and src/Accumulator.cxx. *)
From Coq Require Import Reals.
From Verif Require Import Base.

(** ** Kahan_Accumulator, over arbitrary arithmetic operations. *)
Section Kahan.
Context {T : Type} (zero : T) (add sub : T -> T -> T).

(** Accumulator.h:48-51: running sum and compensation. *)
Record kahan := mk_kahan { k_sum : T; k_c : T }.
(** Accumulator.h:20-23. *)
Definition kahan_init : kahan := mk_kahan zero zero.
(** Accumulator.h:28-38. *)
Definition kahan_add (s : kahan) (value : T) : kahan :=
  let y := sub value (k_c s) in
  let t := add (k_sum s) y in
  mk_kahan t (sub (sub t (k_sum s)) y).
(** Accumulator.h:41-46. *)
Definition kahan_total (s : kahan) : T * kahan := (k_sum s, kahan_init).
End Kahan.
Arguments mk_kahan {T}. Arguments k_sum {T}. Arguments k_c {T}.

Inductive acc_op (T : Type) := AAdd (v : T) | ATotal.
Arguments AAdd {T}. Arguments ATotal {T}.

(** Values returned by the total() calls of a history. *)
Fixpoint kahan_run {T} (zero : T) (add sub : T -> T -> T) (s : kahan) (os : list (acc_op T)) : list T :=
  match os with
  | [] => []
  | AAdd v :: os' => kahan_run zero add sub (kahan_add add sub s v) os'
  | ATotal :: os' => let (t, s') := kahan_total zero s in t :: kahan_run zero add sub s' os'
  end.

Local Open Scope R_scope.

(** ** SumByNumber, Accumulator.h:85-109. *)
Record sbn := mk_sbn { sb_num : nat; sb_counter : nat; sb_chunks : list R }.
(** Accumulator.h:87, default chunk length 100. *)
Definition sbn_init : sbn := mk_sbn 100 0 [0].
(** Accumulator.h:88-95; [m_chunks.back()] of an empty vector is undefined. *)
Definition sbn_add (s : sbn) (v : R) : outcome sbn :=
  match rev (sb_chunks s) with
  | [] => UB
  | b :: r =>
      let chunks := rev r ++ [b + v] in
      let c := S (sb_counter s) in
      if (sb_num s <=? c)%nat then Ok (mk_sbn (sb_num s) 0 (chunks ++ [0]))
      else Ok (mk_sbn (sb_num s) c chunks)
  end.
(** Accumulator.h:96-104.  [m_chunks.resize(1, 0)] keeps the value of the first
    chunk. *)
Definition sbn_total (s : sbn) : R * sbn :=
  (fold_left Rplus (sb_chunks s) 0,
   mk_sbn (sb_num s) 0 (vec_resize (sb_chunks s) 1 0)).

(** ** Accumulator over the reals (no rounding). m_xmin and m_xmax are not
    initialised by the constructor: [None]. *)
Record accum := mk_accum {
  a_setOuter : bool; a_first : bool;
  a_xmin : option R; a_xmax : option R;
  a_total : R; a_partial : list sbn }.

(** Accumulator.cxx:19-20. *)
Definition accum_init : accum := mk_accum true true None None 0 [].
(** Accumulator.cxx:20: m_npts and m_max_xrange. *)
Definition npts : nat := 10.
Definition max_xrange : R := / 10 ^ 30.

Definition Rltb (a b : R) : bool := if Rlt_dec a b then true else false.
Definition Rleb (a b : R) : bool := if Rle_dec a b then true else false.
Definition Reqb (a b : R) : bool := if Req_EM_T a b then true else false.

(** static_cast<size_t> of a non-negative double: truncation. *)
Definition trunc_nat (r : R) : nat := Z.to_nat (up r - 1).

(** Accumulator.cxx:66-77; log of a non-positive number or a division by a zero
    step is not reachable here (lemma indx_in_range). [m_partialSums.at] throws. *)
Definition indx (s : accum) (xmin xmax xx : R) : outcome nat :=
  if Rleb xx xmin then Ok 0%nat
  else if Rleb xmax xx then Ok (length (a_partial s) - 1)%nat
  else
    let xstep := (ln xmax - ln xmin) / INR (npts - 1) in
    let i := trunc_nat ((ln xx - ln xmin) / xstep) in
    if (i <? length (a_partial s))%nat then Ok i else Throw.

(** Accumulator.cxx:22-44. *)
Definition accum_add (s : accum) (value : R) : outcome accum :=
  let absvalue := Rabs value in
  let bounds : outcome accum :=
    if a_setOuter s && negb (Reqb absvalue 0)
    then Ok (mk_accum false (a_first s) (Some absvalue) (Some absvalue) 0 (a_partial s))
    else
      match a_xmin s, a_xmax s with
      | Some xmin, Some xmax =>
          let xmin' := if Rltb absvalue xmin && negb (Reqb absvalue 0)
                          && Rltb max_xrange (absvalue / xmax)
                       then absvalue else xmin in
          let xmax' := if Rltb xmax absvalue then absvalue else xmax in
          Ok (mk_accum (a_setOuter s) (a_first s) (Some xmin') (Some xmax')
                       (a_total s) (a_partial s))
      | _, _ => UB   (* reads an uninitialised member *)
      end in
  obind bounds (fun s =>
    if a_first s
    then Ok (mk_accum (a_setOuter s) true (a_xmin s) (a_xmax s) (a_total s + value) (a_partial s))
    else
      match a_xmin s, a_xmax s with
      | Some xmin, Some xmax =>
          obind (indx s xmin xmax absvalue) (fun i =>
          obind (vec_get (a_partial s) i) (fun b =>
          obind (sbn_add b value) (fun b' =>
          obind (vec_set (a_partial s) i b') (fun p' =>
            Ok (mk_accum (a_setOuter s) false (a_xmin s) (a_xmax s) (a_total s) p')))))
      | _, _ => UB
      end).

(** std::stable_sort, by insertion. *)
Fixpoint insert_sorted (x : R) (l : list R) : list R :=
  match l with
  | [] => [x]
  | y :: l' => if Rltb x y then x :: l else y :: insert_sorted x l'
  end.
Definition sort (l : list R) : list R := fold_right insert_sorted [] l.

(** Accumulator.cxx:46-64. *)
Definition accum_total (s : accum) : R * accum :=
  if a_first s
  then (a_total s,
        mk_accum (a_setOuter s) false (a_xmin s) (a_xmax s) (a_total s)
                 (vec_resize (a_partial s) npts sbn_init))
  else
    let sums := sort (map (fun b => fst (sbn_total b)) (a_partial s)) in
    let t := fold_left Rplus sums 0 in
    (t, mk_accum (a_setOuter s) false (a_xmin s) (a_xmax s) t (repeat sbn_init npts)).

Fixpoint accum_run (s : accum) (os : list (acc_op R)) : outcome (list R) :=
  match os with
  | [] => Ok []
  | AAdd v :: os' => obind (accum_add s v) (fun s' => accum_run s' os')
  | ATotal :: os' =>
      let (t, s') := accum_total s in
      obind (accum_run s' os') (fun ts => Ok (t :: ts))
  end.

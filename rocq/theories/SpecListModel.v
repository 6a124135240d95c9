(** Spectral functions with any number of segments: MultipleBrokenPowerLaw and PiecewisePowerLaw (C33, C35, C37). *)
From Coq Require Import Reals.
From Verif Require Import Base DerivSpec SpecFn SpecExpModel.
Local Open Scope R_scope.

(** std::upper_bound on an increasing range: the position of the first element above [x]. *)
Fixpoint upper_bound (l : list R) (x : R) : nat :=
  match l with [] => 0%nat | a :: l' => if Rltd x a then 0%nat else S (upper_bound l' x) end.
(** The check of addParams, src/MultipleBrokenPowerLaw.cxx:43-46, src/PiecewisePowerLaw.cxx:50-53. *)
Fixpoint increasing (l : list R) : bool :=
  match l with a :: ((b :: _) as l') => Rltd a b && increasing l' | _ => true end.

(** ** MultipleBrokenPowerLaw: Normalization, Index0 .. Index(nb), Break0 .. Break(nb-1) *)
(** The break energies used are those given to addParams ([breaks]), not the parameters. *)
(** src/MultipleBrokenPowerLaw.cxx:131-139: one factor per m, 1 <= m < k; [j] factors are left, from [m]. *)
Fixpoint MBPL_factors (breaks t : list R) (x0 acc : R) (m j : nat) : option R :=
  match j with
  | O => Some acc
  | S j' =>
      xm <-? nth_error breaks m; pm <-? nth_error t (m + 1); pm1 <-? nth_error t (m + 2);
      q <-? rdiv xm x0; f <-? rpow q (pm - pm1); MBPL_factors breaks t x0 (acc * f) (S m) j'
  end.
(** src/MultipleBrokenPowerLaw.cxx:125-141 *)
Definition MBPL_norm (breaks t : list R) (k : nat) : option R :=
  n0 <-? nth_error t 0;
  if (k <=? 1)%nat then Some n0 else x0 <-? nth_error breaks 0; MBPL_factors breaks t x0 n0 1 (k - 1).
(** src/MultipleBrokenPowerLaw.cxx:51-66; without breaks m_breakEnergies[0] is undefined behaviour ([None]). *)
Definition MBPL_value (breaks : list R) : fvalue := fun t x =>
  x0 <-? nth_error breaks 0;
  let k := upper_bound breaks x in
  index <-? nth_error t (k + 1); n <-? MBPL_norm breaks t k; q <-? rdiv x x0; p <-? rpow q index; Some (n * p).
(** src/MultipleBrokenPowerLaw.cxx:68-123; [i] is the position in m_parameter (the code's m); [p] are the values. *)
Definition MBPL_deriv (breaks : list R) : fderiv := fun i p sc x =>
  if (length breaks + 2 <=? i)%nat then None   (* "Break": throws *)
  else
    x0 <-? nth_error breaks 0;
    match i with
    | 0%nat => normalization <-? nth_error p 0; v <-? MBPL_value breaks (trues sc p) x; rdiv v normalization
    | 1%nat =>
        if Rltd x x0 then v <-? MBPL_value breaks (trues sc p) x; q <-? rdiv x x0; l <-? rlog q; Some (v * l) else Some 0
    | S (S m2) =>
        xmm1 <-? nth_error breaks m2;
        if negb (Rltd xmm1 x) then Some 0
        else
          let k := S (upper_bound breaks x) in
          v <-? MBPL_value breaks (trues sc p) x;
          if (i <? k)%nat then b <-? nth_error breaks (S m2); q <-? rdiv b xmm1; l <-? rlog q; Some (v * l)
          else q <-? rdiv x xmm1; l <-? rlog q; s <-? nth_error sc k; Some (v * l * s)
    end.

(** src/MultipleBrokenPowerLaw.cxx:21-49: the parameter values, or an exception. *)
Definition MBPL_addParams (normalization : R) (photonIndexes breakEnergies : list R) : outcome (list R) :=
  if negb (length photonIndexes =? length breakEnergies + 1)%nat then Throw
  else if increasing breakEnergies then Ok (normalization :: photonIndexes ++ breakEnergies) else Throw.

(** ** PiecewisePowerLaw: IndexL, IndexH, dNdE0 .. dNdE(n-1), Energy0 .. Energy(n-1) *)
(** [dec] is m_decoupledNormPar (set from the environment), [energies] is m_energies; there are as many dNdE. *)
(** src/PiecewisePowerLaw.cxx:161-173, and 147-159 (norm_scaled) when applied to the values. *)
Definition PPL_norm (dec : bool) (n : nat) (t : list R) (k : nat) : option R :=
  if (k <? n)%nat then
    if dec then nth_error t (2 + k)
    else d0 <-? nth_error t 2; match k with 0%nat => Some d0 | _ => dk <-? nth_error t (2 + k); Some (d0 * dk) end
  else None.
(** src/PiecewisePowerLaw.cxx:175-187 *)
Definition PPL_index (dec : bool) (energies t : list R) (k : nat) : option R :=
  if (length energies <=? k + 1)%nat then None else
  d0 <-? (if (k =? 0)%nat && negb dec then Some 1 else nth_error t (k + 2)); d1 <-? nth_error t (k + 3);
  e0 <-? nth_error energies k; e1 <-? nth_error energies (k + 1);
  r <-? rdiv d1 d0; lr <-? rlog r; q <-? rdiv e1 e0; lq <-? rlog q; rdiv lr lq.
(** src/PiecewisePowerLaw.cxx:58-76; front() of no energies is undefined behaviour ([None]). *)
Definition PPL_value (dec : bool) (energies : list R) : fvalue := fun t x =>
  let n := length energies in
  front <-? nth_error energies 0; back <-? nth_error energies (n - 1);
  if negb (Rltd front x) then i <-? nth_error t 0; c <-? PPL_norm dec n t 0; q <-? rdiv x front; p <-? rpow q i; Some (c * p)
  else if negb (Rltd x back) then i <-? nth_error t 1; c <-? PPL_norm dec n t (n - 1); q <-? rdiv x back; p <-? rpow q i; Some (c * p)
  else
    let k := (upper_bound energies x - 1)%nat in
    c <-? PPL_norm dec n t k; i <-? PPL_index dec energies t k; e <-? nth_error energies k; q <-? rdiv x e; p <-? rpow q i; Some (c * p).
(** log(x/a)/log(b/a) *)
Definition PPL_w (x a b : R) : option R := q <-? rdiv x a; l <-? rlog q; q' <-? rdiv b a; l' <-? rlog q'; rdiv l l'.
(** src/PiecewisePowerLaw.cxx:78-145 (not decoupled) and 189-247 (decoupled); [p] are the values. *)
Definition PPL_deriv (dec : bool) (energies : list R) : fderiv := fun i p sc x =>
  let n := length energies in
  let t := trues sc p in
  if (n + 2 <=? i)%nat then None   (* "Energy": throws *)
  else
    front <-? nth_error energies 0; back <-? nth_error energies (n - 1);
    match i with
    | 0%nat => if Rltd x front then v <-? PPL_value dec energies t x; q <-? rdiv x front; l <-? rlog q; Some (v * l) else Some 0
    | 1%nat => if Rltd back x then v <-? PPL_value dec energies t x; q <-? rdiv x back; l <-? rlog q; Some (v * l) else Some 0
    | S (S k) =>
        (* value(xarg)/norm_scaled(k), times dNdE0 when not decoupled and k > 0 *)
        let ratio := v <-? PPL_value dec energies t x; c <-? PPL_norm dec n p k; r <-? rdiv v c;
                     (if dec then Some r else d0 <-? PPL_norm dec n p 0; Some (r * d0)) in
        let up := a <-? nth_error energies (k - 1); b <-? nth_error energies k; r <-? ratio; w <-? PPL_w x a b; Some (r * w) in
        let down := a <-? nth_error energies k; b <-? nth_error energies (k + 1); r <-? ratio; w <-? PPL_w x a b; Some (r * (1 - w)) in
        let others :=
          ek <-? nth_error energies k;
          if negb (Rltd x ek) && (k <? n - 1)%nat && (match nth_error energies (k + 1) with Some b => Rltd x b | None => false end) then down
          else if (0 <? k)%nat && (match nth_error energies (k - 1) with Some a => Rltd a x | None => false end) && Rltd x ek then up
          else Some 0 in
        let last :=
          if (k =? n - 1)%nat && (match nth_error energies (k - 1) with Some a => Rltd a x | None => false end) then up else others in
        if dec then
          if ((k =? 0)%nat && Rltd x front) || ((k =? n - 1)%nat && Rltd back x) then ratio
          else if (k =? 0)%nat then
            e1 <-? nth_error energies 1; if negb (Rltd e1 x) then down else last
          else last
        else if (k =? 0)%nat then v <-? PPL_value dec energies t x; c <-? PPL_norm dec n p k; rdiv v c
        else if (k =? n - 1)%nat && Rltd back x then ratio
        else last
    end.
(** src/PiecewisePowerLaw.cxx:27-56: the parameter values, or an exception. *)
Definition PPL_addParams (indexL indexH : R) (dNdEs energies : list R) : outcome (list R) :=
  if negb (length dNdEs =? length energies)%nat then Throw
  else if increasing energies then Ok (indexL :: indexH :: dNdEs ++ energies) else Throw.

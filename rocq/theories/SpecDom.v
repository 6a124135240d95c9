(** Specification for C33 - C35: where each function's derivByParam is claimed to be right.  [i] is the parameter, [sc] the
    scales, [t] the true values in the order of addParam, [x] the energy.  The restrictions beyond positivity are those
    the code needs (see the refutations). *)
From Coq Require Import Reals.
From Verif Require Import Base DerivSpec SpecFn.
Local Open Scope R_scope.

Definition LogParabola_dom (i : nat) (sc t : list R) (x : R) : Prop := match t with [norm; alpha; beta; Eb] => 0 < x /\ 0 < Eb | _ => False end.
(** For the prefactor itself the code divides by it. *)
Definition LogNormal_dom (i : nat) (sc t : list R) (x : R) : Prop := match t with [pref; mean; sigma] => 0 < x /\ sigma <> 0 /\ (i = 0%nat -> pref <> 0) | _ => False end.
Definition SEDPeak_dom (i : nat) (sc t : list R) (x : R) : Prop := match t with [fpeak; index; epeak] => 0 < x /\ 0 < epeak /\ (i = 0%nat -> fpeak <> 0) | _ => False end.
(** Not the limits, which throw. *)
Definition PowerLaw2_dom (i : nat) (sc t : list R) (x : R) : Prop :=
  match t with [NN; gamma; x1; x2] => 0 < x /\ 0 < x1 /\ 0 < x2 /\ x1 <> x2 /\ (i < 2)%nat | _ => False end.
(** Where the wrapped function's derivatives are right, and for the last parameter where it has a value. *)
Definition ScaleFactor_dom (n : nat) (dom : nat -> list R -> list R -> R -> Prop) (V : fvalue) (i : nat) (sc t : list R) (x : R) : Prop :=
  if (i <? n)%nat then dom i (firstn n sc) (firstn n t) x else exists v, V (firstn n t) x = Some v.
(** tau_norm only with a unit scale; redshift and ebl_model throw. *)
Definition EblAtten_dom (n : nat) (dom : nat -> list R -> list R -> R -> Prop) (V : fvalue) (i : nat) (sc t : list R) (x : R) : Prop :=
  if (i <? n)%nat then dom i (firstn n sc) (firstn n t) x else i = n /\ nth_error sc i = Some 1 /\ exists v, V (firstn n t) x = Some v.
(** Inside the table the interpolation has to have a value, at its ends that of the table. *)
Definition FileFunction_dom (interp : list R -> list R -> R -> option R) (xs ys : list R) (i : nat) (sc t : list R) (x : R) : Prop :=
  0 < x /\ xs <> [] /\ length xs = length ys /\ interp xs ys (ln x) <> None /\
  (forall j, (j = 0%nat \/ j = (length xs - 1)%nat) -> nth_error xs j = Some (ln x) -> nth_error ys j = interp xs ys (ln x)).
Definition PLSuper_dom (i : nat) (sc t : list R) (x : R) : Prop := match t with [pref; i1; scale; cut; i2] => 0 < x /\ 0 < scale /\ 0 < cut /\ (i = 0%nat -> pref <> 0) | _ => False end.
(** Below the bound of the exponent, for the parameters in the exponent. *)
Definition PLSuper2_dom (i : nat) (sc t : list R) (x : R) : Prop := match t with [pref; i1; scale; ef; i2] => 0 < x /\ 0 < scale /\ (i = 0%nat -> pref <> 0) /\ ((i >= 3)%nat -> - ef * Rpower x i2 < ln (10 ^ 100)) | _ => False end.
Definition PLSuper3_dom (i : nat) (sc t : list R) (x : R) : Prop := match t with [pref; iS; scale; ef; i2] => 0 < x /\ 0 < scale /\ (i = 0%nat -> pref <> 0) /\
  ((i >= 1)%nat -> (iS + ef * i2) * ln (x / scale) + ef * (1 - Rpower (x / scale) i2) < ln (10 ^ 100)) | _ => False end.
(** Away from the point where the formula changes, and below the bound of the exponent. *)
Definition PLSuper4_dom (i : nat) (sc t : list R) (x : R) : Prop := match t with [pref; iS; scale; ef; i2] => 0 < x /\ 0 < scale /\
  (i = 0%nat -> pref <> 0) /\
  ((i = 2 \/ i = 4)%nat -> Rabs (i2 * ln (x / scale)) <> 1/100) /\
  ((i >= 1)%nat -> 1/100 <= Rabs (i2 * ln (x / scale)) -> (iS + ef / i2) * ln (x / scale) + ef / i2 / i2 * (1 - exp (i2 * ln (x / scale))) < ln (10 ^ 100)) | _ => False end.
(** For Ebreak itself, away from the break. *)
Definition ExpCutoff_dom (i : nat) (sc t : list R) (x : R) : Prop := match t with [pref; index; scale; eb; p1; p2; p3] =>
  0 < x /\ 0 < scale /\ (eb <= x -> 0 < eb /\ p1 <> 0) /\ (i = 0%nat -> pref <> 0) /\ (i = 3%nat -> x <> eb) | _ => False end.
(** Away from both breaks; for a zero prefactor only below eabs or with unit scales. *)
Definition BPLExp_dom (i : nat) (sc t : list R) (x : R) : Prop := match t with [pref; i1; i2; brk; eabs; p1] =>
  0 < x /\ 0 < brk /\ x <> brk /\ x <> eabs /\ (eabs < x -> p1 <> 0) /\ (i = 0%nat -> pref <> 0 \/ x < eabs \/ nth_error sc 4 = Some 1 /\ nth_error sc 5 = Some 1) | _ => False end.
Definition Smooth_dom (i : nat) (sc t : list R) (x : R) : Prop := match t with [pref; i1; scale; i2; brk; beta] => 0 < x /\ 0 < scale /\ 0 < brk /\ beta <> 0 /\ (i = 0%nat -> pref <> 0) | _ => False end.
(** For Index2 only with a unit scale. *)
Definition Smooth2_dom (i : nat) (sc t : list R) (x : R) : Prop := match t with [pref; i1; scale; i2; b12; be12; i3; b23; be23] =>
  0 < x /\ 0 < scale /\ 0 < b12 /\ be12 <> 0 /\ 0 < b23 /\ be23 <> 0 /\ (i = 0%nat -> pref <> 0) /\ (i = 3%nat -> nth_error sc 3 = Some 1) | _ => False end.
(** Not for Scale, which throws; for alpha <= beta not for Alpha, nor at alpha = beta; away from the break. *)
Definition Band_dom (i : nat) (sc t : list R) (x : R) : Prop := match t with [n0; al; be; ep; scale] =>
  0 < x /\ 0 < scale /\ 0 < ep /\ (i < 4)%nat /\ (i = 0%nat -> n0 <> 0) /\ (i = 1%nat -> be < al) /\ (i = 2%nat -> al <> be) /\
  ((i = 1 \/ i = 2 \/ i = 3)%nat -> be < al -> x / scale <> ep / scale * (al - be)) | _ => False end.
(** Not the limits, which throw; Index1 (Index2) not when only the part of the spectrum above (below) the break is normalised
    and the energy is on the other side. *)
Definition BPL2_dom (i : nat) (sc t : list R) (x : R) : Prop := match t with [NN; i1; i2; x0; x1; x2] =>
  0 < x /\ 0 < x0 /\ 0 < x1 /\ x1 < x2 /\ (i < 4)%nat /\
  (x1 <= x0 -> i1 <> -1) /\ (x0 <= x2 -> i2 <> -1) /\
  ((1 <= i)%nat -> NN <> 0) /\
  (i = 1%nat -> x0 < x1 -> x0 <= x) /\ (i = 2%nat -> x2 < x0 -> x <= x0) /\
  (i = 3%nat -> x <> x0 /\ x1 <> x0 /\ x2 <> x0) | _ => False end.
(** Not the limits, which throw; the base of the break energy positive, away from the break. *)
Definition BPL3_dom (i : nat) (sc t : list R) (x : R) : Prop := match t with [F1; i1; F2; i2; a1; b1; a2; b2] =>
  (i < 4)%nat /\ 0 < x /\ 0 < a1 /\ 0 < b1 /\ a1 <> b1 /\ 0 < a2 /\ 0 < b2 /\ a2 <> b2 /\ F2 <> 0 /\ i1 <> -1 /\ i2 <> -1 /\ i1 <> i2 /\
  0 < F1 / F2 * (1 + i1) / (1 + i2) * (Rpower b2 (1 + i2) - Rpower a2 (1 + i2)) / (Rpower b1 (1 + i1) - Rpower a1 (1 + i1)) /\
  x <> Rpower (F1 / F2 * (1 + i1) / (1 + i2) * (Rpower b2 (1 + i2) - Rpower a2 (1 + i2)) / (Rpower b1 (1 + i1) - Rpower a1 (1 + i1))) (1 / (i2 - i1)) | _ => False end.
(** MultipleBrokenPowerLaw with the given break energies.  Not the break parameters, which throw.  The scale is missing
    for Index0 below the first break and for Index(i-1) above its segment. *)
Definition MBPL_dom (breaks : list R) (i : nat) (sc t : list R) (x : R) : Prop :=
  0 < x /\ (i < length breaks + 2)%nat /\ (i = 0%nat -> nth 0 t 0 <> 0) /\ (i = 1%nat -> x < nth 0 breaks 0 -> nth i sc 0 = 1) /\
  ((2 <= i)%nat -> (i - 1 < length breaks)%nat -> nth (i - 1) breaks 0 <= x -> nth i sc 0 = 1).
(** PiecewisePowerLaw with the given energies.  Not the energy parameters, which throw.  The dNdE that are ratios (or, when
    decoupled, fluxes) positive.  The scale is missing for IndexL and IndexH. *)
Definition PPL_dom (dec : bool) (energies : list R) (i : nat) (sc t : list R) (x : R) : Prop :=
  0 < x /\ (i < length energies + 2)%nat /\
  (forall k, (k < length energies)%nat -> dec = true \/ (0 < k)%nat -> 0 < nth (2 + k) t 0) /\ (dec = false -> (2 <= i)%nat -> nth 2 t 0 <> 0) /\
  (i = 0%nat -> x < nth 0 energies 0 -> nth i sc 0 = 1) /\ (i = 1%nat -> nth (length energies - 1) energies 0 < x -> nth i sc 0 = 1) /\
  (i = 2%nat -> dec = true -> length energies = 1%nat -> x <> nth 0 energies 0).

(** Model of the energy-grid helpers of src/FitUtils.cxx (52-85), over the reals.
    [std::log10] and [std::pow(10., x)] are [ln x / ln 10] and [exp (x ln 10)]; the
    model gives [ln] of a non-positive number the value 0, so statements are
    restricted to positive energies. *)
From Coq Require Import Reals.
From Verif Require Import Base.
Local Open Scope R_scope.

Definition log10 (x : R) : R := ln x / ln 10.
Definition pow10 (x : R) : R := exp (x * ln 10).

(** FitUtils.cxx:68-73: loop body for [i], [n] iterations left. *)
Fixpoint expand_loop (nee edisp : nat) (step_lo step_hi : R) (i n : nat) (lo hi : R) (out : list R)
  : outcome (list R) :=
  match n with
  | 0%nat => Ok out
  | S n' =>
      let lo' := lo + step_lo in
      let hi' := hi + step_hi in
      obind (vec_set out (edisp - i) (pow10 lo')) (fun out1 =>
      obind (vec_set out1 (nee + edisp + i - 1) (pow10 hi')) (fun out2 =>
      expand_loop nee edisp step_lo step_hi (S i) n' lo' hi' out2))
  end.

(** FitUtils.cxx:53-77; edisp_bins is not negative. *)
Definition expand_energies (energies : list R) (edisp : nat) : outcome (list R) :=
  let nee := length energies in
  if (nee <? 2)%nat then Ok energies
  else
    let out := repeat 0 edisp ++ energies ++ repeat 0 edisp in
    obind (vec_get energies 0) (fun e0 => obind (vec_get energies 1) (fun e1 =>
    obind (vec_get energies (nee - 1)) (fun eN => obind (vec_get energies (nee - 2)) (fun eM =>
    let lo := log10 e0 in
    let hi := log10 eN in
    expand_loop nee edisp (lo - log10 e1) (hi - log10 eM) 1 edisp lo hi out)))).

(** FitUtils.cxx:79-85; for an empty vector [size()-1] wraps around and the resize
    cannot be satisfied (an exception). *)
Fixpoint ratios (energies : list R) : list R :=
  match energies with
  | a :: ((b :: _) as r) => ln (b / a) :: ratios r
  | _ => []
  end.
Definition log_energy_ratios (energies : list R) : outcome (list R) :=
  match energies with [] => Throw | _ => Ok (ratios energies) end.

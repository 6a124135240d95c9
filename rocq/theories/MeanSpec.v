(** Specification for C55: what the parameters of a spectrum mean. *)
From Coq Require Import Reals.
From Verif Require Import Base DerivSpec SpecFn.
Local Open Scope R_scope.

(** The spectrum [V] with true parameter values [t] behaves at [x] like a power of the energy with exponent [s], the slope of the
    spectrum in a plot with logarithmic axes: it has values near [x], is differentiable, and x f'(x) = s f(x). *)
Definition local_index (V : fvalue) (t : list R) (x s : R) : Prop :=
  exists f delta d, 0 < delta /\ (forall y, Rabs (y - x) < delta -> V t y = Some (f y)) /\ derivable_pt_lim f x d /\ x * d = s * f x.
(** How fast the exponent changes with the logarithm of the energy. *)
Definition local_curvature (V : fvalue) (t : list R) (x c : R) : Prop :=
  exists s delta, 0 < delta /\ (forall y, Rabs (y - x) < delta -> local_index V t y (s y)) /\ derivable_pt_lim s x (c / x).
(** The exponent's limits towards small and large energies. *)
Definition index_at_low_energies (V : fvalue) (t : list R) (s : R) : Prop :=
  forall eps, 0 < eps -> exists x0, 0 < x0 /\ forall x, 0 < x < x0 -> exists s', local_index V t x s' /\ Rabs (s' - s) < eps.
Definition index_at_high_energies (V : fvalue) (t : list R) (s : R) : Prop :=
  forall eps, 0 < eps -> exists x0, forall x, x0 < x -> exists s', local_index V t x s' /\ Rabs (s' - s) < eps.

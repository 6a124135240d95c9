(** Specification for C38. *)
From Coq Require Import Reals.
From Verif Require Import Base DerivSpec SpecFn.
Local Open Scope R_scope.

(** The normal distribution. *)
Definition gauss (mean sigma x : R) : R := / (sqrt (2 * PI) * sigma) * exp (- ((x - mean) * (x - mean)) / (2 * sigma * sigma)).
(** [D] is the derivative of [V] with respect to its argument: at [x] with parameters [t], where [V] has a value nearby. *)
Definition argument_derivative (V : list R -> R -> option R) (D : list R -> R -> option R) (t : list R) (x : R) : Prop :=
  exists d f, D t x = Some d /\ (forall y, V t y = Some (f y)) /\ derivable_pt_lim f x d.
(** Where derivByParam of GaussianError is claimed to be right: unit scale of the parameter, not for Sigma, not for a zero Norm. *)
Definition GaussianError_dom (i : nat) (sc t : list R) (x : R) : Prop :=
  match t with [norm; mean; sigma; offset] => sigma <> 0 /\ i <> 2%nat /\ nth_error sc i = Some 1 /\ (i = 0%nat -> norm <> 0) | _ => False end.
(** The same for LogGaussian: only Norm, and Mean at x = 0. *)
Definition LogGaussian_dom (i : nat) (sc t : list R) (x : R) : Prop :=
  match t with [norm; mean; sigma] => sigma <> 0 /\ nth_error sc i = Some 1 /\ (i = 0%nat /\ norm <> 0 \/ i = 1%nat /\ x = 0) | _ => False end.

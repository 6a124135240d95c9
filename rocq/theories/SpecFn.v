(** Spectral functions: partial real operations and the claim about derivByParam (C33 - C35, C38). *)
From Coq Require Import Reals.
From Verif Require Import Base DerivSpec.
Local Open Scope R_scope.

(** ** Arithmetic whose result may not be a number *)
(** None: a NaN, an infinity or an exception.  Rounding is not modelled. *)
Definition rdiv (a b : R) : option R := if Req_EM_T b 0 then None else Some (a / b).
Definition rlog (a : R) : option R := if Rlt_dec 0 a then Some (ln a) else None.
(** pow with a real exponent (for a base that is not positive it is taken to have no value, which is
    stricter than C's pow). *)
Definition rpow (a b : R) : option R := if Rlt_dec 0 a then Some (Rpower a b) else None.
Notation "a <-? e ; k" := (match e with Some a => k | None => None end) (at level 60, right associativity).

(** ** Functions of parameters and of an energy *)
(** Parameters of optimizers::Function have a value and a scale; getTrueValue() is their product. *)
Definition trues (sc p : list R) : list R := map (fun vs => fst vs * snd vs) (combine p sc).
(** A function takes true values and an energy, its derivByParam also the position and the scales. *)
Definition fvalue := list R -> R -> option R.
Definition fderiv := nat -> list R -> list R -> R -> option R.
(** For scales [sc], values [p], energy [x] and parameter [i] with [dom i sc t x], where [t] are the true
    values, derivByParam returns the partial derivative of the value with respect to the
    parameter's value (not its true value). *)
Definition derivatives_ok (n : nat) (dom : nat -> list R -> list R -> R -> Prop) (V : fvalue) (D : fderiv) : Prop :=
  forall sc p x i, length sc = n -> length p = n -> (i < n)%nat -> dom i sc (trues sc p) x ->
  exists d, D i (trues sc p) sc x = Some d /\ partial_at (fun q => V (trues sc q) x) p i d.
(** The same for functions whose derivByParam also reads the parameters' values: [D i p sc x]. *)
Definition derivatives_okv (n : nat) (dom : nat -> list R -> list R -> R -> Prop) (V : fvalue) (D : fderiv) : Prop :=
  forall sc p x i, length sc = n -> length p = n -> (i < n)%nat -> dom i sc (trues sc p) x ->
  exists d, D i p sc x = Some d /\ partial_at (fun q => V (trues sc q) x) p i d.
(** The opposite: for some parameters, scales and energy the result is a number other than the derivative, ... *)
Definition derivative_wrong (n : nat) (V : fvalue) (D : fderiv) (i : nat) : Prop :=
  exists sc p x d d', length sc = n /\ length p = n /\ Forall (fun s => s <> 0) sc /\ 0 < x /\ D i (trues sc p) sc x = Some d /\
  partial_at (fun q => V (trues sc q) x) p i d' /\ d <> d'.
Definition derivative_wrongv (n : nat) (V : fvalue) (D : fderiv) (i : nat) : Prop :=
  exists sc p x d d', length sc = n /\ length p = n /\ Forall (fun s => s <> 0) sc /\ 0 < x /\ D i p sc x = Some d /\
  partial_at (fun q => V (trues sc q) x) p i d' /\ d <> d'.
(** ... or there is no result although the derivative exists. *)
Definition derivative_missing (n : nat) (V : fvalue) (D : fderiv) (i : nat) : Prop :=
  exists sc p x d, length sc = n /\ length p = n /\ Forall (fun s => s <> 0) sc /\ 0 < x /\ D i (trues sc p) sc x = None /\
  partial_at (fun q => V (trues sc q) x) p i d.

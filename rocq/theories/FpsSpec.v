(** For C82/C182.  Gaussian priors of several parameters. *)
From Coq Require Import Reals List.
From Verif Require Import DexpSpec FpsModel.
Import ListNotations.
Local Open Scope R_scope.

Definition symmetric (m : mat) : Prop := forall i j, (i < dim m)%nat -> (j < dim m)%nat -> el m i j = el m j i.
(** d^T m d. *)
Definition quad (m : mat) (d : nat -> R) : R := sum (dim m) (fun i => sum (dim m) (fun j => d i * el m i j * d j)).
(** h m = 1. *)
Definition inverse_of (h m : mat) : Prop :=
  dim h = dim m /\ forall i j, (i < dim m)%nat -> (j < dim m)%nat -> sum (dim m) (fun k => el h i k * el m k j) = if Nat.eqb i j then 1 else 0.
(** What is expected of the external inversion: inverses, symmetric for symmetric matrices. *)
Definition right_inv (inv : mat -> option mat) : Prop := forall m h, inv m = Some h -> inverse_of h m /\ (symmetric m -> symmetric h).
(** No direction has a negative variance. *)
Definition covariance (m : mat) : Prop := symmetric m /\ forall d, 0 <= quad m d.

(** Number of parameters that are constrained. *)
Fixpoint count (l : list bool) : nat := match l with [] => 0 | true :: l' => S (count l') | false :: l' => count l' end.

(** The sum of -1/2 ((value - mean) / sigma)^2 over the free sources with a prior.  [ms]: mean and sigma of the sources;
    [refs]: the values of the normalisations that the parameters of the scanner are relative to; [ps]: the parameters of
    the free sources. *)
Fixpoint penalty (ms : list (option (R * R))) (refs : list R) (free : list bool) (ps : list R) : R :=
  match ms, refs, free with
  | m :: ms', r :: refs', true :: free' =>
    match ps with
    | p :: ps' => match m with Some (mean, sigma) => - (1 / 2) * ((p * r - mean) / sigma) * ((p * r - mean) / sigma) | None => 0 end + penalty ms' refs' free' ps'
    | [] => 0
    end
  | _ :: ms', _ :: refs', false :: free' => penalty ms' refs' free' ps
  | _, _, _ => 0
  end.

(** The fixed part of the model plus s times the test source in the bins of the range. *)
Definition model_with (fixed target : list R) (first last : nat) (s : R) (m : list R) : Prop :=
  length m = length fixed /\ forall i, (first <= i < last)%nat -> nth i m 0 = nth i fixed 0 + s * nth i target 0.

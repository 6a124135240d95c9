(** Partial derivatives of a partial function of a parameter vector. *)
From Coq Require Import Reals.
From Verif Require Import Base.
Local Open Scope R_scope.

(** [partial_at F p i d]: near [p], moving only component [i], [F] is defined
    and its derivative with respect to that component at [p] is [d]. *)
Definition partial_at (F : list R -> option R) (p : list R) (i : nat) (d : R) : Prop :=
  exists (v0 delta : R) (f : R -> R),
    nth_error p i = Some v0 /\ 0 < delta /\
    (forall v, Rabs (v - v0) < delta -> F (upd p i v) = Some (f v)) /\
    derivable_pt_lim f v0 d.

Definition to_option {A} (o : outcome A) : option A := match o with Ok a => Some a | _ => None end.

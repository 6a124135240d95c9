(** Specification for C36 and C37: integrals and continuity of a spectrum. *)
From Coq Require Import Reals.
From Verif Require Import Base SpecFn.
Local Open Scope R_scope.

(** The integral over [a, b] of the value, as a function of the energy, is [v]. *)
Definition integral_is (V : fvalue) (t : list R) (a b v : R) : Prop :=
  exists (f : R -> R) (pr : Riemann_integrable f a b), (forall x, Rmin a b <= x <= Rmax a b -> V t x = Some (f x)) /\ RiemannInt pr = v.
(** The value exists at every energy and has no jump. *)
Definition continuous_spectrum (V : fvalue) (t : list R) : Prop :=
  exists f : R -> R, forall x, 0 < x -> V t x = Some (f x) /\ continuity_pt f x.
(** It has a jump: at [x] the value is [v], but there are energies arbitrarily near [x] where it is away from [v]. *)
Definition jump (V : fvalue) (t : list R) (x : R) : Prop :=
  exists v eps, V t x = Some v /\ 0 < eps /\ forall del, 0 < del -> exists y w, Rabs (y - x) < del /\ V t y = Some w /\ eps <= Rabs (w - v).
(** BrokenPowerLaw3: the energy where the two power laws meet. *)
Definition BPL3_break (F1 i1 F2 i2 a1 b1 a2 b2 : R) : R :=
  Rpower (F1 / F2 * (1 + i1) / (1 + i2) * (Rpower b2 (1 + i2) - Rpower a2 (1 + i2)) / (Rpower b1 (1 + i1) - Rpower a1 (1 + i1))) (1 / (i2 - i1)).
(** Parameters of BrokenPowerLaw3 for which the two meet. *)
Definition BPL3_admissible (F1 i1 F2 i2 a1 b1 a2 b2 : R) : Prop :=
  0 < a1 /\ 0 < b1 /\ a1 <> b1 /\ 0 < a2 /\ 0 < b2 /\ a2 <> b2 /\ F2 <> 0 /\ i1 <> -1 /\ i2 <> -1 /\ i1 <> i2 /\
  0 < F1 / F2 * (1 + i1) / (1 + i2) * (Rpower b2 (1 + i2) - Rpower a2 (1 + i2)) / (Rpower b1 (1 + i1) - Rpower a1 (1 + i1)).

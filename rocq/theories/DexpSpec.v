(** What the exposure of a diffuse source is about, independently of the code. *)
From Coq Require Import Reals List.
Import ListNotations.
Local Open Scope R_scope.

(** f 0 + ... + f (n-1). *)
Fixpoint sum (n : nat) (f : nat -> R) : R := match n with O => 0 | S k => sum k f + f k end.

(** At least two energies, positive and ascending. *)
Definition energy_grid (es : list R) : Prop :=
  (2 <= length es)%nat /\ 0 < nth 0 es 0 /\ forall i, (S i < length es)%nat -> nth i es 0 < nth (S i) es 0.

(** Energies i and i+1 of the grid are the two to use at energy e: they enclose it, or are the first two (the last two)
    if e is below (above) the grid. *)
Definition bracket (es : list R) (e : R) (i : nat) : Prop :=
  (S i < length es)%nat /\ (nth i es 0 <= e \/ i = 0%nat) /\ (e < nth (S i) es 0 \/ S (S i) = length es).

(** (x, y) lies on the line through (x1, y1) and (x2, y2), as a function of the logarithm of x. *)
Definition log_line (x1 x2 y1 y2 x y : R) : Prop := (y - y1) * (ln x2 - ln x1) = (y2 - y1) * (ln x - ln x1).
(** (x, y) lies on the power law through (x1, y1) and (x2, y2). *)
Definition power_law (x1 x2 y1 y2 x y : R) : Prop := 0 < y /\ log_line x1 x2 (ln y1) (ln y2) x (ln y).

(** Entry j of row i. *)
Definition entry (W : list (list R)) (i j : nat) : R := nth j (nth i W []) 0.
Definition table (n m : nat) (W : list (list R)) : Prop := length W = n /\ forall i, (i < n)%nat -> length (nth i W []) = m.

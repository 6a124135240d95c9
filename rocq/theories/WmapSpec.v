(** What a look-up in a sky map should give. *)
From Coq Require Import Reals List.
Import ListNotations.
Local Open Scope R_scope.

(** The value [v] of column [i], row [j], plane [k], all counted from zero. *)
Definition pixel (image : list (list (list R))) (k j i : nat) (v : R) : Prop :=
  exists plane row, nth_error image k = Some plane /\ nth_error plane j = Some row /\ nth_error row i = Some v.

(** [n3] planes of [n2] rows of [n1] values. *)
Definition shaped (image : list (list (list R))) (n1 n2 n3 : nat) : Prop :=
  length image = n3 /\ forall k plane, nth_error image k = Some plane ->
    length plane = n2 /\ forall j row, nth_error plane j = Some row -> length row = n1.

(** The coordinate [x] (centres of pixels at 1, 2, ...) lies in column [i]. *)
Definition in_column (x : R) (i : nat) : Prop := INR i + 1 / 2 <= x < INR i + 3 / 2.

(** Bilinear interpolation in the unit square. *)
Definition bilinear (v00 v10 v01 v11 t u : R) : R :=
  (1 - t) * ((1 - u) * v00 + u * v01) + t * ((1 - u) * v10 + u * v11).

(** (x, y) lies on the power law through (x1, y1) and (x2, y2). *)
Definition on_power_law (x1 y1 x2 y2 x y : R) : Prop :=
  exists n g, y1 = n * Rpower x1 g /\ y2 = n * Rpower x2 g /\ y = n * Rpower x g.

(** (x, y) lies on the straight line through (x1, y1) and (x2, y2). *)
Definition on_line (x1 y1 x2 y2 x y : R) : Prop := (y - y1) * (x2 - x1) = (y2 - y1) * (x - x1).

Definition increasing (l : list R) : Prop :=
  forall i a b, nth_error l i = Some a -> nth_error l (S i) = Some b -> a < b.

(** The neighbouring entries used for [x]: the pair that encloses it, or the
    first or last pair for an [x] below or above all entries. *)
Definition pair_for (l : list R) (x : R) (k : nat) (a b : R) : Prop :=
  nth_error l k = Some a /\ nth_error l (S k) = Some b /\
  (a <= x \/ k = 0%nat) /\ (x < b \/ S (S k) = length l).

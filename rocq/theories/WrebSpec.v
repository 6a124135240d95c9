(** What filling, integrating and rebinning a sky map should give. *)
From Coq Require Import Reals List Arith.
Import ListNotations.
Local Open Scope R_scope.

Definition sumn (f : nat -> R) (n : nat) : R := fold_right Rplus 0 (map f (seq 0 n)).

(** The sum of [g i j] over the columns [i < n1] and rows [j < n2]. *)
Definition sum2 (g : nat -> nat -> R) (n1 n2 : nat) : R := sumn (fun i => sumn (fun j => g i j) n2) n1.

(** [image] has as many planes as [n3], and [pix k j i] is the value of column
    [i], row [j] of plane [k]. *)
Definition is_plane (plane : list (list R)) (n1 n2 : nat) (pix : nat -> nat -> R) : Prop :=
  length plane = n2 /\
  forall j, (j < n2)%nat -> exists row, nth_error plane j = Some row /\ length row = n1 /\
    forall i, (i < n1)%nat -> nth_error row i = Some (pix j i).

Definition is_image (image : list (list (list R))) (n1 n2 n3 : nat) (pix : nat -> nat -> nat -> R) : Prop :=
  length image = n3 /\
  forall k, (k < n3)%nat -> exists plane, nth_error image k = Some plane /\ is_plane plane n1 n2 (pix k).

(** The sum over the pixels of a map of [n1] by [n2] that fall into the block
    (a, b) of [f] by [f] pixels. *)
Definition block_sum (f n1 n2 : nat) (g : nat -> nat -> R) (a b : nat) : R :=
  sum2 (fun i j => if ((i / f =? a) && (j / f =? b))%nat%bool then g i j else 0) n1 n2.

(** Trapezoidal rule in the logarithm of the energy for E dN/dE. *)
Definition log_trapezoid (es vs : nat -> R) (n : nat) : R :=
  sumn (fun k => (vs (S k) * es (S k) + vs k * es k) / 2 * ln (es (S k) / es k)) (n - 1).

(** The pixels (counted from one) at the border of a map. *)
Definition border (n1 n2 x y : nat) : Prop :=
  (1 <= x <= n1)%nat /\ (1 <= y <= n2)%nat /\ (x = 1 \/ x = n1 \/ y = 1 \/ y = n2)%nat.

(** Vocabulary for the properties of point source maps. *)
From Coq Require Import Reals List.
Import ListNotations.
Local Open Scope R_scope.

(** f 0 + ... + f (n-1). *)
Definition total (n : nat) (f : nat -> R) : R := fold_right Rplus 0 (map f (seq 0 n)).

(** The sum over the i < n that satisfy [P]. *)
Definition total_if (P : nat -> bool) (n : nat) (f : nat -> R) : R := total n (fun i => if P i then f i else 0).

(** A table with [rows] rows of [cols] entries, and one of its entries. *)
Definition table (rows cols : nat) (z : list (list R)) : Prop :=
  length z = rows /\ (forall r, In r z -> length r = cols).
Definition entry (z : list (list R)) (i j : nat) : option R :=
  match nth_error z i with Some r => nth_error r j | None => None end.

(** Distance of two points of the pixel plane, for square pixels of the given width. *)
Definition planar (width : R) (a b : R * R) : R :=
  width * sqrt ((fst a - fst b) * (fst a - fst b) + (snd a - snd b) * (snd a - snd b)).

(** The centre of the [i]-th of [n] equal parts of the pixel of width 1 centred at [c]. *)
Definition part (c : R) (n i : nat) : R := c - 1 / 2 + (INR i + 1 / 2) / INR n.

(** Solid angle of a cone with the given half opening angle in degrees. *)
Definition cone (theta : R) : R := 2 * PI * (1 - cos (theta * PI / 180)).

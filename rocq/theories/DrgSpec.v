(** Polar coordinates about a direction of the sky. *)
From Verif Require Import DrgModel.
From Coq Require Import Reals List.
Local Open Scope R_scope.

Definition unit_vector (v : vec) : Prop := dot v v = 1.
(** ra() and dec() are angles of the direction. *)
Definition angles_of_directions (angles : vec -> R * R) : Prop :=
  forall v, unit_vector v -> skydir (fst (angles v)) (snd (angles v)) = v.

(** The directions 90 degrees to the east and to the north of (ra, dec). *)
Definition ahead (ra dec : R) : vec := skydir ra dec.
Definition east (ra dec : R) : vec := skydir (ra + 90) 0.
Definition north (ra dec : R) : vec := skydir ra (dec + 90).

(** The direction at an angle from (ra, dec) with cosine mu, at position angle phi from east through north. *)
Definition polar (ra dec mu phi : R) : vec :=
  let s := sqrt (1 - mu * mu) in
  let f g := mu * g (ahead ra dec) + s * cos phi * g (east ra dec) + s * sin phi * g (north ra dec) in
  (f vx, f vy, f vz).

(** An angle lies in a range, up to whole turns. *)
Definition in_range (a b p : R) : Prop := exists k : Z, a <= p + 2 * PI * IZR k <= b.


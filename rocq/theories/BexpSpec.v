(** What a table of exposures should hold. *)
From Coq Require Import Reals List.
Import ListNotations.
Local Open Scope R_scope.

(** Exposure at a direction and an energy: the sum over response functions. *)
Definition exposure {Dir Resp} (expo : Dir -> Resp -> R -> R) (resps : list Resp) (d : Dir) (e : R) : R :=
  fold_right (fun r s => expo d r e + s) 0 resps.

(** Exposure of a pixel, zero where the projection has no such pixel. *)
Definition pixel_exposure {Dir Resp} (expo : Dir -> Resp -> R -> R) (resps : list Resp) (od : option Dir) (e : R) : R :=
  match od with Some d => exposure expo resps d e | None => 0 end.

(** [y] is the first entry of [l] with property [P], at position [k]. *)
Definition first_with (P : R -> Prop) (l : list R) (k : nat) : Prop :=
  (exists y, nth_error l k = Some y /\ P y) /\ forall i y, (i < k)%nat -> nth_error l i = Some y -> ~ P y.

Definition close (tol x y : R) : Prop := Rabs ((x - y) / x) < tol.

Definition none_with (P : R -> Prop) (l : list R) : Prop := forall i y, nth_error l i = Some y -> ~ P y.

(** The entry used for a requested energy: the first equal one or else the
    first within the tolerance. *)
Definition selects (tol : R) (l : list R) (x : R) (k : nat) : Prop :=
  first_with (fun y => y = x) l k \/ (x <> 0 /\ none_with (fun y => y = x) l /\ first_with (close tol x) l k).

(** A table of the exposures of [nx] by [ny] pixels at the given energies,
    pixels counted from one, first coordinate fastest, energy slowest. *)
Definition tabulates {Dir Resp} (expo : Dir -> Resp -> R -> R) (resps : list Resp) (sky : R -> R -> option Dir)
    (energies : list R) (nx ny : nat) (map : list R) : Prop :=
  length map = (nx * ny * length energies)%nat /\
  forall k j i e, nth_error energies k = Some e -> (j < ny)%nat -> (i < nx)%nat ->
    nth_error map (k * (ny * nx) + j * nx + i) = Some (pixel_exposure expo resps (sky (INR i + 1) (INR j + 1)) e).

(** The pixel whose lower-left corner convention is the centre: coordinates
    from i+1 up to but not including i+2 (counted from one) belong to pixel i+1. *)
Definition at_pixel (x : R) (i : nat) : Prop := INR i + 1 <= x < INR i + 2.

(** Coordinates for which no pixel is used. *)
Definition off_map (nx ny : nat) (p : R * R) : Prop :=
  fst p <= 0 \/ INR nx + 1 <= fst p \/ snd p <= 0 \/ INR ny + 1 <= snd p.

(** Geometric means of neighbours. *)
Definition midpoints (es ms : list R) : Prop :=
  length ms = (length es - 1)%nat /\
  forall k a b, nth_error es k = Some a -> nth_error es (S k) = Some b -> nth_error ms k = Some (sqrt (a * b)).

(** What the shape of an extended source should be. *)
From Coq Require Import Reals List.
Import ListNotations.
Local Open Scope R_scope.

(** A table with strictly rising, or never falling, abscissae. *)
Definition rising (l : list R) : Prop := forall i a b, nth_error l i = Some a -> nth_error l (S i) = Some b -> a < b.
Definition not_falling (l : list R) : Prop := forall i a b, nth_error l i = Some a -> nth_error l (S i) = Some b -> a <= b.

(** Two neighbouring points (t0, p0), (t1, p1) of a table. *)
Definition neighbours (theta profile : list R) (i : nat) (t0 p0 t1 p1 : R) : Prop :=
  nth_error theta i = Some t0 /\ nth_error theta (S i) = Some t1 /\ nth_error profile i = Some p0 /\ nth_error profile (S i) = Some p1.

(** The straight line through two points. *)
Definition straight (t0 p0 t1 p1 x : R) : R := p0 + (p1 - p0) * (x - t0) / (t1 - t0).

(** Degrees and radians. *)
Definition radians (x : R) : R := x * PI / 180.

(** The square of the distance, in the plane, between the centre and the point
    that is [r] away, in the direction [phi], from a point [x] away from the
    centre ([phi] = 0 points to the centre). *)
Definition dist2 (x r phi : R) : R := x * x + r * r - 2 * x * r * cos phi.

(** The area of the trapezoids under a table. *)
Fixpoint area (pts : list (R * R)) : R :=
  match pts with
  | p :: (q :: _) as t => (snd p + snd q) / 2 * (fst q - fst p) + area t
  | _ => 0
  end.

(** What may happen to a tabulated profile: a parameter is set, the centre is
    set, the profile is evaluated in some direction. *)
Inductive pcmd (Dir : Type) := SetNorm (x : R) | SetRA (x : R) | SetDEC (x : R) | Centre (ra dec : R) | Evaluate (d : Dir).
Arguments SetNorm {Dir}. Arguments SetRA {Dir}. Arguments SetDEC {Dir}. Arguments Centre {Dir}. Arguments Evaluate {Dir}.

(** The coordinates last set as parameters; both are zero at first. *)
Fixpoint last_ra {Dir} (l : list (pcmd Dir)) (ra : R) : R := match l with [] => ra | SetRA x :: t => last_ra t x | _ :: t => last_ra t ra end.
Fixpoint last_dec {Dir} (l : list (pcmd Dir)) (dec : R) : R := match l with [] => dec | SetDEC x :: t => last_dec t x | _ :: t => last_dec t dec end.
Definition no_centre {Dir} (l : list (pcmd Dir)) : Prop := forall ra dec, ~ In (Centre ra dec) l.
Definition no_evaluation {Dir} (l : list (pcmd Dir)) : Prop := forall d, ~ In (Evaluate d) l.

(** What may happen to a disk or a Gaussian: a parameter is set (0: RA, 1: DEC,
    2: radius or sigma), all are read from an element, all are set as a vector,
    the centre is set. *)
Inductive scmd := Set3 (which : nat) (x : R) | ReadAll (ra dec size : R) | Vector (ra dec size : R) | Move (ra dec : R).

(** The parameters after a command. *)
Definition after (c : scmd) (p : R * R * R) : R * R * R :=
  let '(ra, dec, size) := p in
  match c with
  | Set3 0 x => (x, dec, size)
  | Set3 1 x => (ra, x, size)
  | Set3 _ x => (ra, dec, x)
  | ReadAll a b c | Vector a b c => (a, b, c)
  | Move _ _ => p
  end.
Definition after_all (l : list scmd) (p : R * R * R) : R * R * R := fold_left (fun p c => after c p) l p.
Definition keeps (c : scmd) : Prop := match c with Set3 _ _ | ReadAll _ _ _ => True | _ => False end.

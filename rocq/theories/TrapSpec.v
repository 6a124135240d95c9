(** The trapezoidal rule and the integrals of interpolants. *)
From Coq Require Import Reals List.
From Coquelicot Require Import Coquelicot.
Import ListNotations.
Local Open Scope R_scope.

(** Sum of trapezoid areas over adjacent points (x, y). *)
Fixpoint trapezoids (pts : list (R * R)) : R :=
  match pts with
  | p :: (q :: _) as t => (snd p + snd q) / 2 * (fst q - fst p) + trapezoids t
  | _ => 0
  end.

(** Straight line through two points. *)
Definition line (p q : R * R) (t : R) : R :=
  snd p + (snd q - snd p) * ((t - fst p) / (fst q - fst p)).
(** The function whose product with t is linear in log t and which takes the
    given values at the two points. *)
Definition logline (p q : R * R) (t : R) : R :=
  (fst p * snd p + (fst q * snd q - fst p * snd p) * ((ln t - ln (fst p)) / (ln (fst q) - ln (fst p)))) / t.

(** [segments interp pts v]: [v] is the sum over adjacent points of the
    Riemann integral of the interpolant between them. *)
Inductive segments (interp : R * R -> R * R -> R -> R) : list (R * R) -> R -> Prop :=
| seg_one p : segments interp [p] 0
| seg_cons p q l v s :
    is_RInt (interp p q) (fst p) (fst q) v -> segments interp (q :: l) s ->
    segments interp (p :: q :: l) (v + s).

(** Strictly increasing abscissae. *)
Fixpoint increasing (l : list R) : Prop :=
  match l with
  | a :: (b :: _) as t => a < b /\ increasing t
  | _ => True
  end.

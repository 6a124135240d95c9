(** What the averaged point spread function should be. *)
From Coq Require Import Reals List.
From Coquelicot Require Import Coquelicot.
From Verif Require Import Base.
Import ListNotations.
Local Open Scope R_scope.

Definition total {A} (f : A -> R) (l : list A) : R := fold_right (fun a s => f a + s) 0 l.

(** The exposure-weighted mean of the point spread functions of all response
    functions at one separation; zero where there is no exposure. *)
Definition mean_value {Resp} (aeff_exposure : Resp -> R -> R) (psf_exposure : Resp -> R -> R -> R)
    (resps : list Resp) (e s : R) : R :=
  let x := total (fun r => aeff_exposure r e) resps in
  if Rlt_dec 0 x then total (fun r => psf_exposure r s e) resps / x else 0.

Definition degrees (x : R) : R := x * PI / 180.

(** Probability per radian of the ring at a separation of [s] degrees. *)
Definition ring (f : R -> R) (s : R) : R := 2 * PI * f s * sin (degrees s).

(** The broken line through the points (xs, ys). *)
Fixpoint broken_line (xs ys : list R) (x : R) : R :=
  match xs, ys with
  | x0 :: (x1 :: _) as xs', y0 :: (y1 :: _) as ys' =>
      if Rle_dec x x1 then y0 + (y1 - y0) * ((x - x0) / (x1 - x0)) else broken_line xs' ys' x
  | _, _ => 0
  end.

(** The ring density tabulated at the given separations and joined by straight lines. *)
Definition profile (f : R -> R) (seps : list R) : R -> R :=
  broken_line (map degrees seps) (map (ring f) seps).

(** [cone f seps a v]: the density integrates to [v] within [a] degrees. *)
Definition cone (f : R -> R) (seps : list R) (a v : R) : Prop :=
  is_RInt (profile f seps) 0 (degrees a) v.

(** A grid of separations: from zero to [smax], strictly increasing. *)
Definition grid (seps : list R) (smax : R) : Prop :=
  nth_error seps 0 = Some 0 /\ nth_error seps (length seps - 1) = Some smax /\
  (forall i s t, nth_error seps i = Some s -> nth_error seps (S i) = Some t -> s < t).

Definition ascending (l : list R) : Prop :=
  forall i s t, nth_error l i = Some s -> nth_error l (S i) = Some t -> s < t.

(** [fraction f seps smax a c]: the cone of [a] degrees holds the fraction [c]
    of what the cone of [smax] degrees holds, and that is not nothing. *)
Definition fraction (f : R -> R) (seps : list R) (smax a c : R) : Prop :=
  exists u w, cone f seps a u /\ cone f seps smax w /\ w <> 0 /\ c = u / w.

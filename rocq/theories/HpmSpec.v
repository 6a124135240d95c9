(** For C81/C181.  A sky map in HEALPix pixels: 12 nside^2 pixels of equal area. *)
From Coq Require Import Reals List.
From Verif Require Import CmapSpec DexpSpec WmapSpec HpmModel.
Import ListNotations.
Local Open Scope R_scope.

(** A plane for each energy, each with the pixels of the map. *)
Definition shaped (h : hpm) : Prop :=
  length (h_image h) = length (h_energies h) /\
  forall k plane, nth_error (h_image h) k = Some plane -> fst plane = h_nside h /\ length (snd plane) = (12 * h_nside h * h_nside h)%nat.
(** The value of pixel i on plane k. *)
Definition at_pixel (h : hpm) (k i : nat) (v : R) : Prop :=
  exists plane, nth_error (h_image h) k = Some plane /\ nth_error (snd plane) i = Some v.
(** The integrals over the sky are the sums over the pixels times their solid angle; the integral over the sky and all
    energies is by trapezoids in the logarithm of the energy (of v dE = v E dlnE), for a single plane that over the sky. *)
Definition integrated (h : hpm) : Prop :=
  length (h_ints h) = length (h_energies h) /\
  (forall k plane, nth_error (h_image h) k = Some plane -> (k < length (h_energies h))%nat -> nth k (h_ints h) 0 = total (snd plane) * h_omega h) /\
  (length (h_energies h) = 1%nat -> h_total h = nth 0 (h_ints h) 0) /\
  ((1 < length (h_energies h))%nat -> h_total h = sum (length (h_energies h) - 1) (fun k =>
     (nth (S k) (h_ints h) 0 * nth (S k) (h_energies h) 0 + nth k (h_ints h) 0 * nth k (h_energies h) 0) / 2
     * ln (nth (S k) (h_energies h) 0 / nth k (h_energies h) 0))).
(** Weights of an interpolation. *)
Definition weights (l : list (nat * R)) : Prop := List.Forall (fun iw => 0 <= snd iw) l /\ total (map snd l) = 1.

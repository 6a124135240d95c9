(** What the selections of two files have in common. *)
From Coq Require Import Reals NArith List String.
From Verif Require Import Base CutModel.
Import ListNotations.

(** The energies that closed cuts accept. *)
Definition accepts (ranges : list (R * R)) (e : R) : Prop := forall lo hi, In (lo, hi) ranges -> (lo <= e <= hi)%R.
(** The ranges of the ENERGY cuts. *)
Definition energies_of (cuts : list cut) (ranges : list (R * R)) : Prop :=
  filter is_energy cuts = map (fun r => Range "ENERGY" (fst r) (snd r)) ranges.
(** Sums over lists. *)
Definition rsum (l : list R) : R := fold_right Rplus 0%R l.
Definition nsum (l : list N) : N := fold_right N.add 0%N l.
(** The pixels of the border of an image, counted from 1. *)
Definition on_border (n1 n2 i j : nat) : Prop := 1 <= i <= n1 /\ 1 <= j <= n2 /\ (i = 1 \/ i = n1 \/ j = 1 \/ j = n2).

(** The lists of good time intervals of a selection. *)
Definition gtis (cuts : list cut) : list (list (R * R)) := flat_map (fun c => match c with Gti l => [l] | _ => [] end) cuts.

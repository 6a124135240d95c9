(** For C79/C179. *)
From Coq Require Import Reals String List Bool.
From Verif Require Import Base EvtSpec CspModel.
Import ListNotations.
Local Open Scope nat_scope.

(** Logarithmic bounds: n of them, from emin to emax, in equal ratios. *)
Definition log_bounds (emin emax : R) (n : nat) (eb : list R) : Prop :=
  length eb = n /\ nth 0 eb 0%R = emin /\ nth (n - 1) eb 0%R = emax /\
  forall k, S k < n -> nth (S k) eb 0%R = (nth k eb 0 * Rpower (emax / emin) (1 / INR (n - 1)))%R.
(** One value per interval. *)
Definition binned_values (eb : list R) (f : R -> R -> R) (l : list R) : Prop :=
  length l = length eb - 1 /\ forall k, S k < length eb -> nth k l 0%R = f (nth k eb 0%R) (nth (S k) eb 0%R).
Definition total (l : list R) : R := fold_right Rplus 0%R l.
(** What is predicted between two energies is the sum over two parts of the interval. *)
Definition additive (f : R -> R -> R) : Prop := forall a b c, (a <= b <= c)%R -> (f a c = f a b + f b c)%R.

(** The filled pixels of energy k of a consistent cache of counts. *)
Record good (d : cache) : Prop := {
  gd_first : length (c_first d) = S (c_nebins d);
  gd_mono : forall k, k < c_nebins d -> nth k (c_first d) 0 <= nth (S k) (c_first d) 0;
  gd_start : nth 0 (c_first d) 0 = 0;
  gd_end : nth (c_nebins d) (c_first d) 0 = length (c_filled d);
  gd_pix : forall j, j < length (c_filled d) -> nth j (c_filled d) 0 < c_npix d;
  gd_data : length (c_data d) = c_nebins d * c_npix d }.
Definition in_energy (d : cache) (k j : nat) : Prop := nth k (c_first d) 0 <= j < nth (S k) (c_first d) 0.
(** The counts of energy k in the filled pixels. *)
Definition filled_counts (d : cache) (k : nat) : R :=
  total (map (fun j => nth (k * c_npix d + nth j (c_filled d) 0) (c_data d) 0%R)
             (seq (nth k (c_first d) 0) (nth (S k) (c_first d) 0 - nth k (c_first d) 0))).

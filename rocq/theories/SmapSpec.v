(** What a user expects of the predicted counts of a source map. *)
From Coq Require Import Reals Sorted.
From Verif Require Import Base AccumModel AccumProofs SparseModel SmapModel.
Local Open Scope R_scope.

(** The map of plane [t] at pixel [p], however it is stored. *)
Fixpoint cell (l : list (nat * R)) (i : nat) : R :=
  match l with [] => 0 | (j, x) :: l' => if (j =? i)%nat then x else cell l' i end.
Definition pix (s : smap) (i : nat) : R := match sm_img s with Full m => nth i m 0 | SparseI v => cell (sv_data v) i end.
Definition plane (s : smap) (t p : nat) : R := pix s (t * sm_np s + p).
(** Counts of pixel [p] in true-energy bin [t]: the trapezoid in log energy of E S(E) M(E). *)
Definition bin_counts (s : smap) (spec : list R) (t p : nat) : R :=
  (nth t spec 0 * nth t (sm_en s) 0 * plane s t p + nth (S t) spec 0 * nth (S t) (sm_en s) 0 * plane s (S t) p) * nth t (sm_ler s) 0 / 2.

(** The true-energy bins that feed measured bin [k], with their response: the bin itself
    without dispersion; the rescaled bin (or its reference bin) with the old method; the
    response column with the new one. *)
Definition response (s : smap) (k : nat) : list (nat * R) :=
  if (sm_ev s =? 0)%Z then [((k + sm_eb s)%nat, 1)]
  else if (sm_ev s <? 0)%Z then
    let c := nth k (sm_corr s) (1, (-1)%Z) in
    [((if (0 <=? snd c)%Z then Z.to_nat (snd c) + sm_eb s else k + sm_eb s)%nat, fst c)]
  else let e := Z.to_nat (sm_ev s) in
       map (fun i => ((k + sm_eb s - e + i)%nat, nth (k + sm_deb s - e + i) (nth k (sm_drm s) []) 0)) (seq 0 (2 * e + 1)).
Definition counts_at (s : smap) (spec : list R) (k p : nat) : R :=
  Rsum (map (fun tr => snd tr * bin_counts s spec (fst tr) p) (response s k)).
Definition weight (s : smap) (k p : nat) : R := match sm_w s with None => 1 | Some w => nth (k * sm_np s + p) w 0 end.
Definition over_pixels (s : smap) (f : nat -> R) : R := Rsum (map f (seq 0 (sm_np s))).

(** Sizes that belong together. *)
Record sm_ok (s : smap) : Prop := {
  so_en : length (sm_en s) = (sm_nb s + 2 * sm_eb s + 1)%nat;
  so_ler : length (sm_ler s) = (sm_nb s + 2 * sm_eb s)%nat;
  so_spec : length (sm_spec s) = length (sm_en s);
  so_img : match sm_img s with
           | Full m => length m = (length (sm_en s) * sm_np s)%nat
           | SparseI v => sv_null v = 0 /\ StronglySorted lt (map fst (sv_data v)) /\
                          Forall (fun kv => (fst kv < length (sm_en s) * sm_np s)%nat) (sv_data v)
           end;
  so_new : (0 < sm_ev s)%Z -> (sm_ev s <= Z.of_nat (sm_eb s))%Z /\ (sm_ev s <= Z.of_nat (sm_deb s))%Z /\
             length (sm_drm s) = sm_nb s /\ Forall (fun c => length c = (sm_nb s + 2 * sm_deb s)%nat) (sm_drm s);
  so_old : (sm_ev s < 0)%Z -> length (sm_corr s) = sm_nb s /\ Forall (fun c => (snd c < Z.of_nat (sm_nb s))%Z) (sm_corr s);
  so_w : forall w, sm_w s = Some w -> length w = (sm_nb s * sm_np s)%nat }.
Definition dc_ok (s : smap) (dc : dcache) : Prop :=
  length (dc_first dc) = S (sm_nb s) /\ nth 0 (dc_first dc) 0%nat = 0%nat /\
  nth (sm_nb s) (dc_first dc) 0%nat = length (dc_filled dc) /\
  (forall k, (k < sm_nb s)%nat -> (nth k (dc_first dc) 0 <= nth (S k) (dc_first dc) 0)%nat) /\
  Forall (fun p => (p < sm_np s)%nat) (dc_filled dc).
(** Entry [j] of the filled-pixel list belongs to plane [k]. *)
Definition in_plane (dc : dcache) (k j : nat) : Prop := (nth k (dc_first dc) 0 <= j < nth (S k) (dc_first dc) 0)%nat.
Definition zeros (n : nat) : list R := repeat 0 n.
Definition is_full (s : smap) : Prop := exists m, sm_img s = Full m.
Definition with_spec (s : smap) (spec : list R) : smap :=
  mk_sm (sm_np s) (sm_nb s) (sm_img s) (sm_ev s) (sm_eb s) (sm_deb s) (sm_drm s) (sm_corr s) spec (sm_en s) (sm_ler s) (sm_w s).
(** The old dispersion method may describe plane [k] by the planes of another (reference) bin;
    it does not when the reference is negative. *)
Definition own_planes (s : smap) (k : nat) : Prop := (sm_ev s < 0)%Z -> (snd (nth k (sm_corr s) (1%R, (-1)%Z)) < 0)%Z.
Definition no_counts (n : nat) : fixed_spec := mk_fs (zeros n) (zeros n) (zeros n) (zeros n).
Definition spectra_of_size (n : nat) (f : fixed_spec) : Prop :=
  length (fs_spec f) = n /\ length (fs_wt f) = n /\ length (fs_ed f) = n /\ length (fs_ed_wt f) = n.

(** The likelihood as a function of one spectral parameter of one source: [Sp x] is its
    spectrum, [base] the counts of all the other sources, [npred0] their weighted total. *)
Definition predicted_wt (f : fixed_spec) (k1 k2 : nat) : R := Rsum (map (fun k => nth k (fs_ed_wt f) 0) (seq k1 (k2 - k1))).
Definition likelihood (s : smap) (dc : dcache) (data base : list R) (npred0 : R) (k1 k2 : nat) (Sp : R -> list R) (x : R) : outcome R :=
  obind (addSourceCounts base (with_spec s (Sp x)) dc false) (fun model =>
  obind (addFixedNpreds (no_counts (sm_nb s)) (with_spec s (Sp x)) false) (fun f =>
  binned_value dc data (sm_np s) model (npred0 + predicted_wt f k1 k2) k1 k2)).
Definition gradient (s : smap) (dc : dcache) (data base : list R) (k1 k2 : nat) (spec dspec : list R) : outcome R :=
  obind (addSourceCounts base (with_spec s spec) dc false) (fun model =>
  obind (data_over_model dc data (sm_np s) model k1 k2) (fun dom =>
  obind (addFreeDeriv (with_spec s spec) dspec dom dc k1 k2) (fun pn => Ok (fst pn + snd pn)))).

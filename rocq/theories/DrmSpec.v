(** What a user expects of the dispersion matrix and of the cache of a source. *)
From Coq Require Import Reals.
From Verif Require Import Base AccumProofs SmapModel SmapSpec DrmModel.
Local Open Scope R_scope.

Record drm_ok (d : drm) : Prop := {
  dk_en : (2 <= length (dr_en d))%nat;
  dk_rows : length (dr_mat d) = dr_ntrue d;
  dk_cols : Forall (fun r => length r = dr_nmeas d) (dr_mat d) }.
Definition entry (d : drm) (k kp : nat) : R := nth kp (nth k (dr_mat d) []) 0.

(** [ext] is [counts] with [n] more bins at each end, each extrapolated from its two
    neighbours. *)
Definition extended (d : drm) (counts : list R) (n : nat) (ext : list R) : Prop :=
  length ext = (length counts + 2 * n)%nat /\
  (forall i, (i < length counts)%nat -> nth (n + i) ext 0 = nth i counts 0) /\
  (forall i, (i < n)%nat -> nth i ext 0 = extrapolate_lo d (nth (S i) ext 0) (nth (S (S i)) ext 0)) /\
  (forall i, (i < n)%nat -> let j := (n + length counts + i)%nat in
     nth j ext 0 = extrapolate_hi d (nth (j - 2) ext 0) (nth (j - 1) ext 0)).
Definition folded (d : drm) (ext : list R) (kp : nat) : R := Rsum (map (fun k => nth k ext 0 * entry d k kp) (seq 0 (dr_ntrue d))).

(** Counts of the source in true-energy bin [k]. *)
Definition true_counts (s : smap) (k : nat) : R := over_pixels s (bin_counts s (sm_spec s) (k + sm_eb s)).
Definition at_least_zero (x : R) : R := Rmax 0 x.
(** [r] is the reference of bin [k]: the bin itself if it has true counts, otherwise the last
    earlier bin that has. *)
Definition reference (tc : list R) (k r : nat) : Prop :=
  (r <= k)%nat /\ 0 < nth r tc 0 /\ forall j, (r < j <= k)%nat -> nth j tc 0 <= 0.

(** The likelihood with the source counted as the code does while it is free: predicted total
    and corrections from its cache. *)
Local Open Scope outcome_scope.
Definition likelihood_free (d : drm) (s : smap) (first : bool) (flag : Z) (dc : dcache) (data base : list R) (npred0 : R) (k1 k2 : nat) (Sp : R -> list R) (x : R) : outcome R :=
  cf <- drm_update d (with_spec s (Sp x)) first ;;
  let s' := with_cache (with_spec s (Sp x)) (fst cf) in
  model <- addSourceCounts base s' dc false ;;
  n <- NpredValue d (with_spec s (Sp x)) first flag true k1 k2 ;;
  binned_value dc data (sm_np s) model (npred0 + n) k1 k2.

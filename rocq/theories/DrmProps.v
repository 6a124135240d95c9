(** Properties C30, C31 and C48: the dispersion matrix, the per-source cache, fixed and free
    sources; and what C47 leaves out. *)
From Coq Require Import Reals Lra Sorted.
From Verif Require Import Base AccumModel AccumProofs SparseModel SmapModel SmapSpec CountsProofs SmapProofs SmapNpred SmapFixed SmapLike SmapGrad DrmModel DrmSpec DrmProofs.
Local Open Scope nat_scope.

(** Measured counts are the true counts, continued at both ends, folded with the matrix.  The
    continuation is the only one whose added bins are each extrapolated from their neighbours. *)
Theorem C30_convolution :
  forall d tc, drm_ok d -> length tc = dr_nmeas d -> 2 <= dr_nmeas d \/ dr_eb d = 0 ->
  exists ext meas, extended d tc (dr_eb d) ext /\ (forall ext', extended d tc (dr_eb d) ext' -> ext' = ext) /\
    convolve d tc = Ok meas /\ length meas = dr_nmeas d /\
    forall kp, kp < dr_nmeas d -> nth kp meas 0%R = folded d ext kp.
Proof.
  intros d tc DK HL H2. destruct (convolve_ok d DK tc HL H2) as (ext & He & E). exists ext, (map (folded d ext) (seq 0 (dr_nmeas d))). split; auto. split; [|split; auto].
  - intros e' He'. apply (extended_unique d tc (dr_eb d)); auto. lia.
  - split; [now rewrite map_length, seq_length|]. intros kp Hkp. now rewrite nth_map_seq'.
Qed.
Print Assumptions C30_convolution.
Lemma ext0 d tc ext : dr_eb d = 0 -> extended d tc (dr_eb d) ext -> ext = tc.
Proof. intros H0 He. apply (extended_unique d tc (dr_eb d)); auto. rewrite H0. apply extended_0. Qed.
Theorem C30_wrong_size : forall d tc, length tc <> dr_nmeas d -> convolve d tc = Throw.
Proof. intros d tc H. unfold convolve. destruct (Nat.eqb_spec (length tc) (dr_nmeas d)); [contradiction|reflexivity]. Qed.
Print Assumptions C30_wrong_size.
(** A matrix whose rows add up to one conserves the total of the continued counts; without
    extra bins this is the total of the counts. *)
Theorem C30_conserves_counts :
  forall d tc ext meas, drm_ok d -> length tc = dr_nmeas d -> 2 <= dr_nmeas d \/ dr_eb d = 0 ->
    extended d tc (dr_eb d) ext -> convolve d tc = Ok meas ->
    (forall k, k < dr_ntrue d -> Rsum (map (entry d k) (seq 0 (dr_nmeas d))) = 1%R) ->
    Rsum meas = Rsum ext /\ (dr_eb d = 0 -> Rsum meas = Rsum tc).
Proof.
  intros d tc ext meas DK HL H2 He E Hr. destruct (convolve_ok d DK tc HL H2) as (e' & He' & E'). assert (e' = ext) as -> by (apply (extended_unique d tc (dr_eb d)); auto; lia).
  rewrite E in E'. injection E' as ->. 
  assert (forall l : list R, Rsum l = Rsum (map (fun k => nth k l 0%R) (seq 0 (length l)))) as Hn.
  { induction l as [|x l IH]; auto. cbn [length]. rewrite <- cons_seq. cbn [map nth]. rewrite <- seq_shift, map_map. unfold Rsum in *. cbn [fold_right]. now rewrite IH. }
  assert (Rsum (map (folded d ext) (seq 0 (dr_nmeas d))) = Rsum ext) as H.
  { unfold folded. rewrite (Rsum_swap (fun kp k => (nth k ext 0 * entry d k kp)%R)). rewrite (Hn ext). destruct He as (Le & _). rewrite Le, HL. rewrite <- (nmeas_ntrue d DK).
    apply Rsum_ext. intros k Hk. apply in_seq in Hk. rewrite Rsum_scal, Hr by lia. ring. }
  split; auto. intros H0. rewrite H. f_equal. apply (ext0 d); auto.
Qed.
Print Assumptions C30_conserves_counts.
(** Non-negative matrices give non-negative counts when the continued counts are non-negative;
    without extra bins those are the given counts. *)
Theorem C30_nonnegative_partial :
  forall d tc ext meas, drm_ok d -> length tc = dr_nmeas d -> 2 <= dr_nmeas d \/ dr_eb d = 0 ->
    extended d tc (dr_eb d) ext -> convolve d tc = Ok meas ->
    (forall k kp, (0 <= entry d k kp)%R) -> (forall k, (0 <= nth k ext 0)%R) \/ (dr_eb d = 0 /\ forall k, (0 <= nth k tc 0)%R) ->
    forall kp, (0 <= nth kp meas 0)%R.
Proof.
  intros d tc ext meas DK HL H2 He E Hm Hp kp. destruct (convolve_ok d DK tc HL H2) as (e' & He' & E'). assert (e' = ext) as -> by (apply (extended_unique d tc (dr_eb d)); auto; lia).
  assert (forall k, (0 <= nth k ext 0)%R) as Hp'.
  { destruct Hp as [Hp|[H0 Hp]]; auto. assert (ext = tc) as -> by (apply (ext0 d); auto). auto. }
  rewrite E in E'. injection E' as ->. destruct (Nat.lt_ge_cases kp (dr_nmeas d)) as [H|H].
  - rewrite nth_map_seq' by auto. unfold folded, Rsum. induction (seq 0 (dr_ntrue d)) as [|k l IH]; simpl; [lra|]. specialize (Hp' k). specialize (Hm k kp). assert (0 <= nth k ext 0 * entry d k kp)%R by (apply Rmult_le_pos; auto). lra.
  - rewrite nth_overflow by (rewrite map_length, seq_length; lia). lra.
Qed.
Print Assumptions C30_nonnegative_partial.
(** Without extra bins the convolution is linear. *)
Theorem C30_linear_partial :
  forall d x y a b mx my, drm_ok d -> dr_eb d = 0 -> length x = dr_nmeas d -> length y = dr_nmeas d ->
    convolve d x = Ok mx -> convolve d y = Ok my ->
    exists m, convolve d (map (fun k => a * nth k x 0 + b * nth k y 0)%R (seq 0 (dr_nmeas d))) = Ok m /\ length m = dr_nmeas d /\
      forall kp, kp < dr_nmeas d -> nth kp m 0%R = (a * nth kp mx 0 + b * nth kp my 0)%R.
Proof.
  intros d x y a b mx my DK H0 Lx Ly Ex Ey. set (z := map (fun k => (a * nth k x 0 + b * nth k y 0)%R) (seq 0 (dr_nmeas d))).
  assert (length z = dr_nmeas d) as Lz by (unfold z; now rewrite map_length, seq_length).
  assert (forall t, length t = dr_nmeas d -> convolve d t = Ok (map (folded d t) (seq 0 (dr_nmeas d)))) as Hc.
  { intros t Lt. destruct (convolve_ok d DK t Lt ltac:(auto)) as (e & He & E). assert (e = t) as -> by (apply (ext0 d); auto). auto. }
  rewrite Hc in Ex, Ey by auto. injection Ex as <-. injection Ey as <-. exists (map (folded d z) (seq 0 (dr_nmeas d))). split; [apply Hc; auto|]. split; [now rewrite map_length, seq_length|].
  intros kp Hkp. rewrite !nth_map_seq' by auto. unfold folded. rewrite <- !Rsum_scal, <- Rsum_plus. apply Rsum_ext. intros k Hk. apply in_seq in Hk. unfold z. rewrite nth_map_seq' by (rewrite (nmeas_ntrue d DK), H0 in Hk; lia). ring.
Qed.
Print Assumptions C30_linear_partial.
(** On a logarithmic grid a power-law spectrum above the thresholds is continued exactly. *)
Theorem C30_power_law_continuation :
  forall d e0 r b q, 3 <= length (dr_en d) -> (0 < e0)%R -> (0 < r)%R -> r <> 1%R -> (0 < b)%R -> (0 < q)%R ->
    (forall i, i < length (dr_en d) -> nth i (dr_en d) 0%R = (e0 * r ^ i)%R) ->
    (forall i, i < dr_nmeas d + 2 * dr_eb d -> (/ 10000 < b * q ^ i)%R) ->
    forall ext, extended d (map (fun i => b * q ^ (dr_eb d + i))%R (seq 0 (dr_nmeas d))) (dr_eb d) ext ->
    ext = map (fun i => b * q ^ i)%R (seq 0 (dr_nmeas d + 2 * dr_eb d)).
Proof.
  intros d e0 r b q HE He0 Hr Hr1 Hb Hq Hgrid Hth ext Hext. set (n := dr_eb d) in *. set (m := dr_nmeas d) in *. assert (2 <= m) as Hm by (unfold m, dr_nmeas; lia).
  assert (forall i, (0 < r ^ i)%R) as Hri by (intros; apply pow_lt; auto). assert (forall i, (0 < b * q ^ i)%R) as Hbi by (intros; apply Rmult_lt_0_compat; [auto|apply pow_lt; auto]).
  assert (ln r <> 0%R) as Hln. { intros H. apply Hr1. rewrite <- (exp_ln r) by auto. rewrite H. apply exp_0. }
  assert (forall i j, i < length (dr_en d) -> j < length (dr_en d) -> ln (en d i / en d j) = ((INR i - INR j) * ln r)%R) as Hlog.
  { intros i j Hi Hj. unfold en. rewrite (Hgrid i Hi), (Hgrid j Hj). replace (e0 * r ^ i / (e0 * r ^ j))%R with (r ^ i * / r ^ j)%R by (pose proof (Hri j); field; split; lra).
    assert (forall k, ln (r ^ k) = (INR k * ln r)%R) as Hp by (intros k; induction k as [|k IH]; [simpl; rewrite ln_1; ring|rewrite S_INR; simpl pow; rewrite ln_mult by auto; rewrite IH; ring]).
    rewrite ln_mult, ln_Rinv, !Hp by (auto; apply Rinv_0_lt_compat; auto). ring. }
  assert (log_ratio_lo d = 2%R) as Elo.
  { unfold log_ratio_lo. destruct (Nat.leb_spec 2 (dr_nmeas d)); [|unfold m in Hm; lia]. rewrite !Hlog by lia. simpl INR. field. auto. }
  assert (log_ratio_hi d = 2%R) as Ehi.
  { unfold log_ratio_hi. cbv zeta. destruct (Nat.leb_spec 2 (dr_nmeas d)); [|unfold m in Hm; lia]. fold m. assert (m < length (dr_en d)) by (unfold m, dr_nmeas; lia). rewrite !Hlog by lia. replace (INR m - INR (m - 2))%R with 2%R by (rewrite minus_INR by lia; simpl INR; ring). replace (INR (m - 1) - INR (m - 2))%R with 1%R by (rewrite !minus_INR by lia; simpl INR; ring). field. auto. }
  assert (forall c x, (0 < c)%R -> (0 < x)%R -> (c * exp (2 * ln (x / c)) = x * x / c)%R) as Hsq.
  { intros c x Hc Hx. replace (2 * ln (x / c))%R with (ln (x / c) + ln (x / c))%R by ring. rewrite exp_plus, exp_ln by (apply Rdiv_lt_0_compat; auto). field. lra. }
  apply (extended_unique d (map (fun i => (b * q ^ (n + i))%R) (seq 0 m)) n); auto; [|rewrite map_length, seq_length; auto].
  assert (length (map (fun i => (b * q ^ (n + i))%R) (seq 0 m)) = m) as Lm by now rewrite map_length, seq_length.
  split; [rewrite Lm, map_length, seq_length; auto|]. rewrite Lm. split; [|split].
  - intros i Hi. rewrite !nth_map_seq' by lia. reflexivity.
  - intros i Hi. rewrite !nth_map_seq' by lia. unfold extrapolate_lo. 
    destruct (Rltb_spec (/ 10000) (b * q ^ S i)) as [H1|H1]; [|pose proof (Hth (S i) ltac:(lia)); lra]. destruct (Rltb_spec (/ 10000) (b * q ^ S (S i))) as [H2|H2]; [|pose proof (Hth (S (S i)) ltac:(lia)); lra]. cbn [andb].
    rewrite Elo, Hsq by auto. simpl pow. pose proof (pow_lt q i Hq). field. repeat split; lra.
  - intros i Hi. cbv zeta. assert (exists j, n + m + i = S (S j)) as (j & Ej) by (exists (n + m + i - 2); lia). rewrite Ej. replace (S (S j) - 2) with j by lia. replace (S (S j) - 1) with (S j) by lia.
    rewrite !nth_map_seq' by lia. unfold extrapolate_hi. assert (/ 10000000000 < / 10000)%R by (apply Rinv_lt_contravar; lra).
    destruct (Rltb_spec (/ 10000000000) (b * q ^ S j)) as [H1|H1]; [|pose proof (Hth (S j) ltac:(lia)); lra]. destruct (Rltb_spec (/ 10000000000) (b * q ^ j)) as [H2|H2]; [|pose proof (Hth j ltac:(lia)); lra]. cbn [andb].
    rewrite Ehi, Hsq by auto. simpl pow. pose proof (pow_lt q j Hq). field. repeat split; lra.
Qed.
Print Assumptions C30_power_law_continuation.
Theorem C30_transpose :
  forall d, drm_ok d -> exists t, compute_transpose d = Ok t /\ length t = dr_nmeas d /\
    forall k kp, k < dr_ntrue d -> kp < dr_nmeas d -> length (nth kp t []) = dr_ntrue d /\ nth k (nth kp t []) 0%R = nth kp (nth k (dr_mat d) []) 0%R.
Proof.
  intros d DK. destruct (transpose_ok d DK) as (t & E & [T1 T2] & S). exists t. split; auto. split; auto. intros k kp Hk Hkp. split; [|apply S; auto].
  rewrite Forall_forall in T2. apply T2, nth_In. lia.
Qed.
Print Assumptions C30_transpose.

(** Three energies 1, 2, 4; one extra bin at each end, which goes entirely into the first
    (last) measured bin. *)
Definition exd : drm := mk_drm [1; 2; 4]%R 1 [[1; 0]; [1; 0]; [0; 1]; [0; 1]]%R.
Lemma exd_ok : drm_ok exd.
Proof. constructor; [simpl; lia|reflexivity|repeat constructor]. Qed.
Example C30_case :
  drm_ok exd /\ (forall k kp, (0 <= entry exd k kp)%R) /\ (forall k, k < dr_ntrue exd -> Rsum (map (entry exd k) (seq 0 (dr_nmeas exd))) = 1%R) /\
  (forall i, i < length (dr_en exd) -> nth i (dr_en exd) 0%R = (1 * 2 ^ i)%R) /\ forall i, i < dr_nmeas exd + 2 * dr_eb exd -> (/ 10000 < 8 * (1 / 2) ^ i)%R.
Proof.
  split; [apply exd_ok|]. split; [intros [|[|[|[|[|k]]]]] [|[|[|kp]]]; unfold entry; simpl; lra|]. split; [|split].
  - intros [|[|[|[|k]]]] Hk; unfold dr_ntrue in Hk; simpl in Hk; try lia; unfold Rsum, entry; simpl; lra.
  - intros [|[|[|i]]] Hi; simpl in *; try lia; lra.
  - intros [|[|[|[|i]]]] Hi; unfold dr_nmeas in Hi; simpl in *; try lia; lra.
Qed.
(** What is missing: the linear extrapolation gives negative counts. *)
Theorem C30_negative_refuted :
  exists d tc meas, drm_ok d /\ length tc = dr_nmeas d /\ (forall k kp, (0 <= entry d k kp)%R) /\ (forall k, (0 <= nth k tc 0)%R) /\
    convolve d tc = Ok meas /\ (nth 0 meas 0 < 0)%R.
Proof.
  set (tc := [0; 1]%R). destruct (C30_convolution exd tc exd_ok eq_refl ltac:(left; simpl; auto)) as (ext & meas & He & _ & E & L & H).
  exists exd, tc, meas. split; [apply exd_ok|]. split; auto. split; [apply C30_case|]. split; [intros [|[|[|k]]]; simpl; lra|]. split; auto.
  rewrite H by (unfold dr_nmeas; simpl; lia). destruct He as (Le & Hm & Hlo & Hhi). simpl in Le.
  pose proof (Hm 0 ltac:(simpl; lia)) as M0. pose proof (Hm 1 ltac:(simpl; lia)) as M1. pose proof (Hlo 0 ltac:(simpl; lia)) as L0. simpl in M0, M1.
  unfold folded, dr_ntrue, entry, Rsum. simpl. rewrite L0, M0, M1. unfold extrapolate_lo. destruct (Rltb_spec (/ 10000) 0); [lra|]. cbn [andb]. unfold diff_ratio_lo, dr_nmeas, en. simpl. lra.
Qed.
Print Assumptions C30_negative_refuted.
(** Nor is it linear with extra bins. *)
Theorem C30_linear_refuted :
  exists d x y mx my m, drm_ok d /\ convolve d x = Ok mx /\ convolve d y = Ok my /\
    convolve d (map (fun k => nth k x 0 + nth k y 0)%R (seq 0 (dr_nmeas d))) = Ok m /\ nth 0 m 0%R <> (nth 0 mx 0 + nth 0 my 0)%R.
Proof.
  assert (forall a b, (1 <= a)%R -> (1 <= b)%R -> exists meas, convolve exd [a; b]%R = Ok meas /\ (nth 0 meas 0 = a * a / b + a)%R) as H.
  { intros a b Ha Hb. destruct (C30_convolution exd [a; b] exd_ok eq_refl ltac:(left; simpl; auto)) as (ext & meas & He & _ & E & L & H). exists meas. split; auto. 
    rewrite H by (unfold dr_nmeas; simpl; lia). destruct He as (Le & Hm & Hlo & Hhi). simpl in Le.
    pose proof (Hm 0 ltac:(simpl; lia)) as M0. pose proof (Hm 1 ltac:(simpl; lia)) as M1. pose proof (Hlo 0 ltac:(simpl; lia)) as L0. simpl in M0, M1.
    unfold folded, dr_ntrue, entry, Rsum. simpl. rewrite L0, M0, M1. unfold extrapolate_lo. assert (/ 10000 < 1)%R by lra. destruct (Rltb_spec (/ 10000) a); [|lra]. destruct (Rltb_spec (/ 10000) b); [|lra]. cbn [andb].
    assert (log_ratio_lo exd = 2%R) as ->.
    { unfold log_ratio_lo, dr_nmeas, en. simpl. replace (1 / 4)%R with (/ 2 * / 2)%R by lra. replace (2 / 4)%R with (/ 2)%R by lra. rewrite ln_mult by lra.
      assert (ln (/ 2) <> 0)%R by (rewrite ln_Rinv by lra; pose proof ln_lt_2; lra). field. auto. }
    replace (2 * ln (a / b))%R with (ln (a / b) + ln (a / b))%R by ring. rewrite exp_plus, exp_ln by (apply Rdiv_lt_0_compat; lra). field. lra. }
  destruct (H 1%R 1%R ltac:(lra) ltac:(lra)) as (mx & Ex & Hx). destruct (H 2%R 1%R ltac:(lra) ltac:(lra)) as (my & Ey & Hy). destruct (H (1 + 2)%R (1 + 1)%R ltac:(lra) ltac:(lra)) as (m & Em & Hm).
  exists exd, [1; 1]%R, [2; 1]%R, mx, my, m. split; [apply exd_ok|]. split; auto. split; auto. split; [exact Em|]. rewrite Hx, Hy, Hm. lra.
Qed.
Print Assumptions C30_linear_refuted.
(** One measured bin and extra bins: counts[1] is read out of range. *)
Theorem C30_single_bin_refuted : exists d tc, drm_ok d /\ length tc = dr_nmeas d /\ convolve d tc = UB.
Proof. exists (mk_drm [1; 2]%R 1 [[1]; [1]; [1]]%R), [5%R]. split; [constructor; [simpl; lia|reflexivity|repeat constructor]|]. split; reflexivity. Qed.
Print Assumptions C30_single_bin_refuted.

(** The per-source cache.  The conditions under which the update is defined: with the old
    dispersion method the first bin has true counts and the matrix can be applied; the debug
    message of the first negative count has been printed or there are no extra bins. *)
Record updatable (d : drm) (s : smap) (first : bool) : Prop := {
  up_map : sm_ok s; up_drm : drm_ok d; up_n : dr_nmeas d = sm_nb s;
  up_first : first = false \/ sm_eb s = 0;
  up_old : (sm_ev s < 0)%Z -> (2 <= dr_nmeas d \/ dr_eb d = 0) /\ (0 < true_counts s 0)%R }.
Lemma update_exists d s first : updatable d s first -> exists npreds wn mc b, npred_arrays s = Ok (npreds, wn) /\ arrays_ok s npreds wn /\
  (is_full s -> forall q, q < sm_nb s -> nth q wn [] = row_spec s q (seq 0 (sm_np s))) /\ raw_meas d s mc /\ length mc = sm_nb s /\
  ((sm_ev s < 0)%Z -> exists ext, extended d (tcs s) (dr_eb d) ext /\ mc = map (folded d ext) (seq 0 (sm_nb s))) /\
  drm_update d s first = Ok (mk_dcach (tcs s) (map (Rmax 0) mc) (map (xi_of (tcs s) (map (Rmax 0) mc)) (seq 0 (sm_nb s))) (map (kref_of (tcs s)) (seq 0 (sm_nb s))) (tws s wn)
    (map (mw_of (sm_ev s) (tcs s) (map (Rmax 0) mc) (tws s wn) (map (mw0 s wn) (seq 0 (sm_nb s)))) (seq 0 (sm_nb s))), b).
Proof.
  intros [OK DK HN HF HO]. destruct (arrays s OK) as (npreds & wn & EA & HA & Hfull).
  assert (exists mc, raw_meas d s mc /\ length mc = sm_nb s /\ ((sm_ev s < 0)%Z -> exists ext, extended d (tcs s) (dr_eb d) ext /\ mc = map (folded d ext) (seq 0 (sm_nb s)))) as (mc & HR & HL & Hx).
  { unfold raw_meas. destruct (Z.ltb_spec (sm_ev s) 0) as [He|He].
    - destruct (HO He) as [H2 _]. destruct (convolve_ok d DK (tcs s)) as (ext & Hext & E); [unfold tcs; rewrite map_length, seq_length; auto|auto|].
      rewrite HN in E. exists (map (folded d ext) (seq 0 (sm_nb s))). split; auto. split; [now rewrite map_length, seq_length|]. eauto.
    - exists (map (m0 s) (seq 0 (sm_nb s))). split; auto. split; [now rewrite map_length, seq_length|lia]. }
  destruct (update_ok d s OK HN npreds wn EA HA first mc HR HL) as (b & _ & E); [tauto|intros He _; apply HO; auto|].
  exists npreds, wn, mc, b. auto 10.
Qed.
(** The correction factor times the true counts of the reference bin is the measured count; a
    bin with true counts is its own reference, any other bin refers to the last earlier bin that
    has some; without one the factor is one. *)
Theorem C31_corrections_partial :
  forall d s first, updatable d s first -> exists c b, drm_update d s first = Ok (c, b) /\
    length (ca_true c) = sm_nb s /\ length (ca_meas c) = sm_nb s /\ length (ca_xi c) = sm_nb s /\ length (ca_kref c) = sm_nb s /\ length (ca_true_wt c) = sm_nb s /\ length (ca_meas_wt c) = sm_nb s /\
    forall k, k < sm_nb s ->
      nth k (ca_true c) 0%R = true_counts s k /\ (0 <= nth k (ca_meas c) 0)%R /\
      (forall r, reference (ca_true c) k r ->
         (nth k (ca_xi c) 0 * nth r (ca_true c) 0 = nth k (ca_meas c) 0)%R /\ nth k (ca_kref c) 0%Z = if r =? k then (-1)%Z else Z.of_nat r) /\
      ((forall j, j <= k -> (nth j (ca_true c) 0 <= 0)%R) -> nth k (ca_xi c) 0%R = 1%R /\ nth k (ca_kref c) 0%Z = (-1)%Z).
Proof.
  intros d s first U. destruct (update_exists d s first U) as (npreds & wn & mc & b & EA & HA & Hfull & HR & HL & Hx & E). rewrite E. eexists. exists b. split; [reflexivity|]. cbn [ca_true ca_meas ca_xi ca_kref ca_true_wt ca_meas_wt].
  unfold tcs at 1, tws. rewrite !map_length, !seq_length. do 6 (split; [auto|]). intros k Hk. rewrite nth_tcs by auto. split; auto.
  assert (nth k (map (Rmax 0) mc) 0%R = Rmax 0 (nth k mc 0%R)) as Em by (rewrite (nth_indep _ 0%R (Rmax 0 0)) by (rewrite map_length; lia); apply map_nth).
  split; [rewrite Em; apply Rmax_l|]. rewrite !nth_map_seq' by auto. split.
  - intros r Hr. pose proof (proj2 (refof_some (tcs s) k r) Hr) as Er. unfold xi_of. rewrite Er. destruct Hr as (Hle & Hpos & Hz). split; [field; lra|].
    unfold kref_of. destruct (Nat.eqb_spec r k) as [->|Hne].
    + destruct (Rltb_spec 0 (nth k (tcs s) 0%R)); [reflexivity|lra].
    + destruct (Rltb_spec 0 (nth k (tcs s) 0%R)); [specialize (Hz k ltac:(lia)); lra|]. now rewrite Er.
  - intros Hz. pose proof (proj2 (refof_none (tcs s) k) Hz) as En. unfold xi_of, kref_of. rewrite En. split; auto. destruct (Rltb_spec 0 (nth k (tcs s) 0%R)); reflexivity.
Qed.
Print Assumptions C31_corrections_partial.
(** What the measured counts are, negative values being replaced by zero: the convolution with
    the old method, the totals of the dispersed map with the new one, the true counts without
    dispersion. *)
Theorem C31_measured_counts_partial :
  forall d s first c b, updatable d s first -> drm_update d s first = Ok (c, b) ->
    ((sm_ev s < 0)%Z -> exists ext, extended d (ca_true c) (dr_eb d) ext /\ forall k, k < sm_nb s -> nth k (ca_meas c) 0%R = Rmax 0 (folded d ext k)) /\
    (sm_ev s = 0%Z -> forall k, k < sm_nb s -> nth k (ca_meas c) 0%R = Rmax 0 (true_counts s k)) /\
    ((0 < sm_ev s)%Z -> forall k, k < sm_nb s -> nth k (ca_meas c) 0%R = Rmax 0 (over_pixels s (counts_at s (sm_spec s) k))).
Proof.
  intros d s first c b U E0. destruct (update_exists d s first U) as (npreds & wn & mc & b' & EA & HA & Hfull & HR & HL & Hx & E). rewrite E in E0. injection E0 as <- <-. cbn [ca_true ca_meas].
  assert (forall k, k < sm_nb s -> nth k (map (Rmax 0) mc) 0%R = Rmax 0 (nth k mc 0%R)) as Em by (intros k Hk; rewrite (nth_indep _ 0%R (Rmax 0 0)) by (rewrite map_length; lia); apply map_nth).
  split; [|split].
  - intros He. destruct (Hx He) as (ext & H1 & H2). exists ext. split; auto. intros k Hk. rewrite Em by auto. subst mc. now rewrite nth_map_seq'.
  - intros He k Hk. rewrite Em by auto. unfold raw_meas in HR. rewrite He in HR. simpl in HR. subst mc. rewrite nth_map_seq' by auto. unfold m0. rewrite He. reflexivity.
  - intros He k Hk. rewrite Em by auto. unfold raw_meas in HR. destruct (Z.ltb_spec (sm_ev s) 0); [lia|]. subst mc. rewrite nth_map_seq' by auto. unfold m0. destruct (Z.ltb_spec 0 (sm_ev s)); [reflexivity|lia].
Qed.
Print Assumptions C31_measured_counts_partial.
(** With the old method, the map rescaled with the corrections has in every plane the measured
    counts of the cache. *)
Lemma with_cache_ok d s first c b : updatable d s first -> drm_update d s first = Ok (c, b) -> sm_ok (with_cache s c).
Proof.
  intros U E0. destruct (update_exists d s first U) as (npreds & wn & mc & b' & EA & HA & Hfull & HR & HL & Hx & E). rewrite E in E0. injection E0 as <- <-. destruct U as [OK _ _ _ _].
  destruct OK as [q1 q2 q3 q4 q5 q6 q7]. constructor; auto. intros He. simpl in He |- *. split; [rewrite combine_length, !map_length, seq_length; lia|].
  apply Forall_forall. intros [x z] Hin. apply in_combine_r in Hin. apply in_map_iff in Hin as (k & <- & Hk). apply in_seq in Hk. cbn [snd]. unfold kref_of.
  destruct (Rltb 0 (nth k (tcs s) 0%R)); [lia|]. destruct (refof (tcs s) k) as [r|] eqn:Er; simpl; [|lia]. apply refof_le in Er. lia.
Qed.
Lemma combine_nth' {A B} (l : list A) (m : list B) k a b : k < length l -> length l = length m -> nth k (combine l m) (a, b) = (nth k l a, nth k m b).
Proof. intros Hk HL. apply combine_nth. auto. Qed.
Lemma nth_map_any {A} (f : nat -> A) n i d : i < n -> nth i (map f (seq 0 n)) d = f i.
Proof. apply nth_map_seq'. Qed.
Theorem C31_rescaled_map :
  forall d s first c b, updatable d s first -> (sm_ev s < 0)%Z -> drm_update d s first = Ok (c, b) ->
    forall k, k < sm_nb s -> over_pixels s (counts_at (with_cache s c) (sm_spec s) k) = nth k (ca_meas c) 0%R.
Proof.
  intros d s first c b U He E0 k Hk. destruct (update_exists d s first U) as (npreds & wn & mc & b' & EA & HA & Hfull & HR & HL & Hx & E). rewrite E in E0. injection E0 as <- <-.
  destruct U as [OK DK HN HF HO]. destruct (HO He) as [_ Hpos]. cbn [ca_meas].
  destruct (refof (tcs s) k) as [r|] eqn:Er.
  2:{ pose proof (proj1 (refof_none (tcs s) k) Er 0 ltac:(lia)) as H. rewrite nth_tcs in H by lia. lra. }
  pose proof (proj1 (refof_some _ _ _) Er) as (Hle & Hp & Hz).
  assert (forall p, counts_at (with_cache s (mk_dcach (tcs s) (map (Rmax 0) mc) (map (xi_of (tcs s) (map (Rmax 0) mc)) (seq 0 (sm_nb s))) (map (kref_of (tcs s)) (seq 0 (sm_nb s))) (tws s wn)
       (map (mw_of (sm_ev s) (tcs s) (map (Rmax 0) mc) (tws s wn) (map (mw0 s wn) (seq 0 (sm_nb s)))) (seq 0 (sm_nb s))))) (sm_spec s) k p =
       (xi_of (tcs s) (map (Rmax 0) mc) k * bin_counts s (sm_spec s) (r + sm_eb s) p)%R) as Hc.
  { intros p. unfold counts_at, response. cbn [with_cache sm_ev sm_corr sm_eb]. destruct (Z.eqb_spec (sm_ev s) 0); [lia|]. destruct (Z.ltb_spec (sm_ev s) 0); [|lia]. cbv zeta. cbn [ca_xi ca_kref].
    rewrite combine_nth' by (rewrite ?map_length, ?seq_length; auto). cbn [fst snd]. rewrite !nth_map_any by auto. unfold Rsum. cbn [map fold_right fst snd].
    assert ((if (0 <=? kref_of (tcs s) k)%Z then Z.to_nat (kref_of (tcs s) k) + sm_eb s else k + sm_eb s) = r + sm_eb s) as ->.
    { unfold kref_of. destruct (Rltb_spec 0 (nth k (tcs s) 0%R)) as [Hk0|Hk0].
      - simpl. f_equal. destruct (Nat.eq_dec r k); auto. specialize (Hz k ltac:(lia)). lra.
      - rewrite Er. simpl Zref. destruct (Z.leb_spec 0 (Z.of_nat r)); [|lia]. now rewrite Nat2Z.id. }
    change (bin_counts (with_cache s _) (sm_spec s) (r + sm_eb s) p) with (bin_counts s (sm_spec s) (r + sm_eb s) p). ring. }
  unfold over_pixels. rewrite (Rsum_ext _ (fun p => (xi_of (tcs s) (map (Rmax 0) mc) k * bin_counts s (sm_spec s) (r + sm_eb s) p)%R)) by (intros; apply Hc). rewrite Rsum_scal.
  change (Rsum (map (bin_counts s (sm_spec s) (r + sm_eb s)) (seq 0 (sm_np s)))) with (true_counts s r). rewrite <- (nth_tcs s r) by lia. unfold xi_of. rewrite Er. field. lra.
Qed.
Print Assumptions C31_rescaled_map.
(** Weighted true counts, for full maps and the old method or none. *)
Theorem C31_weighted_true_counts_partial :
  forall d s first c b, updatable d s first -> drm_update d s first = Ok (c, b) -> is_full s -> (sm_ev s <= 0)%Z ->
    forall k, k < sm_nb s -> nth k (ca_true_wt c) 0%R = over_pixels s (fun p => weight s k p * bin_counts s (sm_spec s) (k + sm_eb s) p)%R.
Proof.
  intros d s first c b U E0 HF He k Hk. destruct (update_exists d s first U) as (npreds & wn & mc & b' & EA & HA & Hfull & HR & HL & Hx & E). rewrite E in E0. injection E0 as <- <-.
  destruct U as [OK DK HN HFi HO]. cbn [ca_true_wt]. unfold tws. rewrite nth_map_seq' by auto. unfold tw_of. rewrite (Hfull HF) by auto.
  assert (width s = 1) as W1 by (unfold width; destruct (Z.ltb_spec 0 (sm_ev s)); lia). assert (row0 s k = k + sm_eb s) as R0 by (unfold row0; destruct (Z.ltb_spec 0 (sm_ev s)); lia).
  transitivity (disp s (sm_spec s) [1%R] (k + sm_eb s) 1 (fun i => (Rsum (map (fun p => weight s k p * plane s (k + sm_eb s + i) p)%R (seq 0 (sm_np s))), Rsum (map (fun p => weight s k p * plane s (S (k + sm_eb s + i)) p)%R (seq 0 (sm_np s)))))).
  - unfold disp. apply Rsum_ext. intros i Hi. apply in_seq in Hi. assert (i = 0) as -> by lia. cbn [nth]. rewrite row_nth by lia. rewrite R0. reflexivity.
  - rewrite (disp_pixels s OK (sm_spec s) ltac:(rewrite (so_spec s OK), (so_en s OK); lia)) by lia. unfold over_pixels. apply Rsum_ext. intros p _. f_equal. unfold Rsum. cbn [seq map fold_right nth]. rewrite Nat.add_0_r. ring.
Qed.
Print Assumptions C31_weighted_true_counts_partial.

(** Concrete maps without weights: one pixel, two bins, old dispersion method, matrix with rows
    (1/2, 1/2) and (0, 1). *)
Definition exs (ev : Z) (m spec : list R) : smap :=
  mk_sm 1 2 (Full m) ev 0 0 [] [(1%R, (-1)%Z); (1%R, (-1)%Z)] spec [1; 1; 1]%R [2; 2]%R None.
Definition exd2 : drm := mk_drm [1; 2; 4]%R 0 [[1 / 2; 1 / 2]; [0; 1]]%R.
Lemma exs_ok ev m spec : (ev <= 0)%Z -> length m = 3 -> length spec = 3 -> sm_ok (exs ev m spec).
Proof. intros H1 H2 H3. constructor; simpl; auto; try lia; try discriminate. intros _. split; [reflexivity|repeat constructor]. Qed.
Lemma exd2_ok : drm_ok exd2.
Proof. constructor; [simpl; lia|reflexivity|repeat constructor]. Qed.
Lemma exs_true ev a b c x y z : true_counts (exs ev [a; b; c] [x; y; z]) 0 = (x * a + y * b)%R /\ true_counts (exs ev [a; b; c] [x; y; z]) 1 = (y * b + z * c)%R.
Proof. unfold true_counts, over_pixels, bin_counts, plane, pix, Rsum. simpl. split; field. Qed.
Lemma exs_up ev a b c x y z : (ev <= 0)%Z -> (0 < x * a + y * b)%R -> updatable exd2 (exs ev [a; b; c] [x; y; z]) true.
Proof.
  intros He Hp. constructor; auto using exd2_ok; [apply exs_ok; auto|]. intros _. split; [auto|]. rewrite (proj1 (exs_true ev a b c x y z)). auto.
Qed.
Example C31_case : updatable exd2 (exs (-1) [1; 0; 0] [1; 1; 1])%R true /\ reference [1; 0]%R 1 0.
Proof. split; [apply exs_up; [lia|lra]|]. split; [lia|]. split; [simpl; lra|]. intros j Hj. assert (j = 1) as -> by lia. simpl. lra. Qed.

(** What is missing, first: without true counts in the first bin the old method reads the
    weighted counts of bin -1. *)
Theorem C31_leading_empty_bin_refuted :
  exists d s, sm_ok s /\ drm_ok d /\ dr_nmeas d = sm_nb s /\ is_full s /\ (sm_ev s < 0)%Z /\ (0 < true_counts s 1)%R /\ drm_update d s false = UB.
Proof.
  set (s := exs (-1) [0; 0; 1]%R [1; 1; 1]%R). assert (sm_ok s) as OK by (apply exs_ok; auto; lia).
  exists exd2, s. split; auto. split; [apply exd2_ok|]. split; [reflexivity|]. split; [eexists; reflexivity|]. split; [reflexivity|]. split; [unfold s; rewrite (proj2 (exs_true _ _ _ _ _ _ _)); lra|].
  destruct (arrays s OK) as (npreds & wn & EA & HA & _). unfold drm_update. rewrite EA. cbn [obind]. rewrite (wts_ok s OK) by reflexivity. cbn [obind].
  rewrite (cache_counts_ok exd2 s OK eq_refl npreds wn HA). cbn [obind]. cbv zeta. rewrite !map_map. cbn [fst snd]. change (sm_ev s <? 0)%Z with true. cbv iota.
  destruct (convolve_ok exd2 exd2_ok (map (fun x => true_counts s x) (seq 0 (sm_nb s))) eq_refl ltac:(auto)) as (ext & _ & Ec). rewrite Ec. cbn [obind].
  match goal with |- context [clamp s false ?n ?l] => destruct (clamp_ok s false n l ltac:(auto)) as (b & Eb & _); rewrite Eb end. cbn [obind].
  assert (map (fun x => true_counts s x) (seq 0 (sm_nb s)) = [0; 1]%R) as ->.
  { cbn [sm_nb s exs seq map]. unfold s. rewrite (proj1 (exs_true _ _ _ _ _ _ _)), (proj2 (exs_true _ _ _ _ _ _ _)). repeat f_equal; lra. }
  unfold corrections. cbn [length seq mfold]. cbn [vec_get nth_error obind dr_nmeas exd2 dr_en length Nat.sub seq map].
  destruct (Rltb_spec 0 0); [lra|]. reflexivity.
Qed.
Print Assumptions C31_leading_empty_bin_refuted.
(** Second: the message of the first negative count reads as many true counts as the map has
    planes, extra bins included. *)
Theorem C31_first_message_refuted :
  exists d s, sm_ok s /\ drm_ok d /\ dr_nmeas d = sm_nb s /\ is_full s /\ (sm_ev s < 0)%Z /\ (0 < true_counts s 0)%R /\ drm_update d s true = UB.
Proof.
  set (s := mk_sm 1 2 (Full [0; 1; 1; 40; 0]%R) (-1) 1 1 [] [(1%R, (-1)%Z); (1%R, (-1)%Z)] [1; 1; 1; 1; 1]%R [1; 1; 1; 1; 1]%R [2; 2; 2; 2]%R None).
  assert (sm_ok s) as OK. { constructor; simpl; auto; try lia; try discriminate. }
  set (d := mk_drm [1; 2; 4]%R 0 [[-1; 0]; [0; 1]]%R). assert (drm_ok d) as DK by (constructor; [simpl; lia|reflexivity|repeat constructor]).
  assert (true_counts s 0 = 2%R /\ true_counts s 1 = 41%R) as [T0 T1] by (unfold true_counts, over_pixels, bin_counts, plane, pix, Rsum; simpl; split; lra).
  exists d, s. split; auto. split; auto. split; [reflexivity|]. split; [eexists; reflexivity|]. split; [reflexivity|]. split; [lra|].
  destruct (arrays s OK) as (npreds & wn & EA & HA & _). unfold drm_update. rewrite EA. cbn [obind]. rewrite (wts_ok s OK) by reflexivity. cbn [obind].
  rewrite (cache_counts_ok d s OK eq_refl npreds wn HA). cbn [obind]. cbv zeta. rewrite !map_map. cbn [fst snd]. change (sm_ev s <? 0)%Z with true. cbv iota.
  assert (map (fun x => true_counts s x) (seq 0 (sm_nb s)) = [2; 41]%R) as -> by (cbn [sm_nb s seq map]; rewrite T0, T1; reflexivity).
  destruct (convolve_ok d DK [2; 41]%R eq_refl ltac:(auto)) as (ext & He & Ec). rewrite (ext0 d _ _ eq_refl He) in Ec. rewrite Ec. cbn [obind].
  assert (folded d [2; 41]%R 0 = (-2)%R) as F0 by (unfold folded, Rsum, entry, dr_ntrue; simpl; lra).
  unfold clamp. cbn [dr_nmeas d dr_en length Nat.sub seq map mfold]. rewrite F0. destruct (Rltb_spec (-2) 0); [|lra]. reflexivity.
Qed.
Print Assumptions C31_first_message_refuted.
(** Third: with the new method the weighted true counts combine the spectrum of the bin with the
    planes of the lowest bin of its window. *)
Theorem C31_weighted_true_counts_refuted :
  exists d s c b, updatable d s false /\ is_full s /\ drm_update d s false = Ok (c, b) /\
    nth 0 (ca_true_wt c) 0%R <> over_pixels s (fun p => weight s 0 p * bin_counts s (sm_spec s) (0 + sm_eb s) p)%R.
Proof.
  set (s := mk_sm 1 1 (Full [0; 0; 1; 1]%R) 1 1 1 [[0; 1; 0]%R] [] [1; 1; 1; 1]%R [1; 1; 1; 1]%R [2; 2; 2]%R None).
  assert (sm_ok s) as OK by (constructor; simpl; auto; try lia; [intros _; repeat split; try lia; repeat constructor|discriminate]).
  set (d := mk_drm [1; 2]%R 1 [[1]; [1]; [1]]%R). assert (updatable d s false) as U.
  { constructor; auto; [constructor; [simpl; lia|reflexivity|repeat constructor]|]. simpl. lia. }
  destruct (update_exists d s false U) as (npreds & wn & mc & b' & EA & HA & Hfull & HR & HL & Hx & E). eexists d, s, _, b'. split; auto. split; [eexists; reflexivity|]. split; [exact E|].
  cbn [ca_true_wt]. unfold tws. cbn [sm_nb s seq map nth]. unfold tw_of. rewrite (Hfull ltac:(eexists; reflexivity)) by (simpl; lia).
  unfold over_pixels, disp, row_spec, wsum, width, row0, weight, bin_counts, plane, pix, wts_of, Rsum. simpl. lra.
Qed.
Print Assumptions C31_weighted_true_counts_refuted.

(** C48.  Counted as fixed, a source adds to the predicted total exactly what it adds while it
    is free, when its planes are its own and the unweighted totals are not negative. *)
Definition total_of (l : list R) (k1 k2 : nat) : R := Rsum (map (fun k => nth k l 0%R) (seq k1 (k2 - k1))).
Lemma sum_ok l k1 k2 : k1 <= k2 <= length l -> mfold (fun t k => obind (vec_get l k) (fun x => Ok (t + x)%R)) (seq k1 (k2 - k1)) 0%R = Ok (total_of l k1 k2).
Proof.
  intros Hk. unfold total_of. assert (forall n a t, a + n <= length l -> mfold (fun t k => obind (vec_get l k) (fun x => Ok (t + x)%R)) (seq a n) t = Ok (t + Rsum (map (fun k => nth k l 0%R) (seq a n)))%R) as H.
  { induction n as [|n IH]; intros a t Ha; cbn [seq mfold map]; [unfold Rsum; simpl; f_equal; ring|]. rewrite (vec_get_ok l a 0%R) by lia. cbn [obind]. rewrite IH by lia. unfold Rsum. cbn [fold_right]. f_equal. ring. }
  rewrite H by lia. f_equal. ring.
Qed.
Lemma weighted_single s k spec wn x : (sm_ev s <= 0)%Z -> window s k = k + sm_eb s -> length (nth k wn []) = 1 ->
  weighted s spec wn k [x] = (x * disp s spec [1%R] (k + sm_eb s) 1 (fun i => nth i [nth 0 (nth k wn []) (0%R, 0%R)] (0%R, 0%R)))%R.
Proof.
  intros He Hw Hl. unfold weighted, disp. rewrite Hw. assert (width s = 1) as -> by (unfold width; destruct (Z.ltb_spec 0 (sm_ev s)); lia).
  unfold Rsum. cbn [seq map fold_right nth]. destruct (nth k wn []) as [|y [|]]; try discriminate. cbn [nth]. ring.
Qed.
Theorem C48_free_equals_fixed_partial :
  forall d s first (use_edisp : bool) config_ev k1 k2, updatable d s first -> sm_ev s = map_ev use_edisp config_ev -> k1 <= k2 <= sm_nb s ->
  exists c b f, drm_update d s first = Ok (c, b) /\ addFixedNpreds (no_counts (sm_nb s)) (with_cache s c) false = Ok f /\
    ((forall k, k1 <= k < k2 -> own_planes (with_cache s c) k) ->
       NpredValue d s first (npred_flag use_edisp config_ev) true k1 k2 = Ok (total_of (fs_ed_wt f) k1 k2)) /\
    ((forall k, k1 <= k < k2 -> (0 <= nth k (fs_ed f) 0)%R) ->
       NpredValue d s first (npred_flag use_edisp config_ev) false k1 k2 = Ok (total_of (fs_ed f) k1 k2)).
Proof.
  intros d s first use cfg k1 k2 U Hev Hk. destruct (update_exists d s first U) as (npreds & wn & mc & b & EA & HA & Hfull & HR & HL & Hx & E).
  eexists. exists b. match type of E with _ = Ok (?cc, _) => set (c := cc) in * end.
  pose proof (with_cache_ok d s first c b U E) as OK'. pose proof U as [OK DK HN HF HO].
  assert (npred_arrays (with_cache s c) = Ok (npreds, wn)) as EA'.
  { rewrite <- EA. unfold npred_arrays. cbn [with_cache sm_img]. destruct (sm_img s); reflexivity. }
  destruct (addFixedNpreds_ok (with_cache s c) OK' (no_counts (sm_nb s)) false) as (f & Ef & Lf & Hf).
  { unfold fs_len, no_counts, zeros. cbn. rewrite repeat_length. auto. }
  destruct (addFixed_wt (with_cache s c) OK' (no_counts (sm_nb s)) false npreds wn EA' HA) as (f' & Ef' & _ & Hwt).
  { unfold fs_len, no_counts, zeros. cbn. rewrite repeat_length. auto. }
  rewrite Ef in Ef'. injection Ef' as <-. exists f. split; [exact E|]. split; [exact Ef|].
  assert (forall k, nth k (zeros (sm_nb s)) 0%R = 0%R) as Hz by (intros k; unfold zeros; apply nth_repeat).
  assert (forall k, k < sm_nb s -> nth k (map (Rmax 0) mc) 0%R = Rmax 0 (nth k mc 0%R)) as Em by (intros k Hk'; rewrite (nth_indep _ 0%R (Rmax 0 0)) by (rewrite map_length; lia); apply map_nth).
  assert (length (tws s wn) = sm_nb s) as Ltw by (unfold tws; now rewrite map_length, seq_length).
  assert (length (tcs s) = sm_nb s) as Ltc by (unfold tcs; now rewrite map_length, seq_length).
  assert ((npred_flag use cfg =? 0)%Z = true -> sm_ev s = 0%Z) as Hfl.
  { rewrite Hev. unfold npred_flag, map_ev. destruct use; [|reflexivity]. intros H. apply Z.eqb_eq in H. auto. }
  split.
  - intros Hown. unfold NpredValue. rewrite E. cbn [obind fst]. unfold summed_counts.
    assert (forall k, k1 <= k < k2 -> nth k (fs_ed_wt f) 0%R = nth k (ca_meas_wt c) 0%R) as Hmain.
    { intros k Hkk. specialize (Hwt k ltac:(simpl; lia)). rewrite Hwt. unfold no_counts. cbn [fs_ed_wt]. rewrite Hz. rewrite Rplus_0_l, Rmult_1_l. fold (column (with_cache s c) k).
      replace (nth k (ca_meas_wt c) 0%R) with (mw_of (sm_ev s) (tcs s) (map (Rmax 0) mc) (tws s wn) (map (mw0 s wn) (seq 0 (sm_nb s))) k) by (unfold c; cbn [ca_meas_wt]; rewrite nth_map_seq' by lia; reflexivity). unfold mw_of. destruct HA as (A1 & A2 & A3 & A4). specialize (Hown k Hkk).
      destruct (Z.ltb_spec (sm_ev s) 0) as [He|He].
      - pose proof (own_row0 (with_cache s c) k Hown) as Hrow. unfold own_planes in Hown. cbn [with_cache sm_ev sm_corr] in Hown. specialize (Hown He).
        rewrite combine_nth' in Hown by (unfold c; cbn [ca_xi ca_kref]; rewrite ?map_length, ?seq_length; auto; lia). cbn [snd] in Hown. unfold c in Hown. cbn [ca_kref] in Hown. rewrite nth_map_seq' in Hown by lia.
        assert (0 < nth k (tcs s) 0)%R as Hp.
        { unfold kref_of in Hown. destruct (Rltb_spec 0 (nth k (tcs s) 0%R)); auto. destruct (refof (tcs s) k) as [r|] eqn:Er; [simpl in Hown; lia|].
          pose proof (proj1 (refof_none (tcs s) k) Er 0 ltac:(lia)) as H0. rewrite nth_tcs in H0 by lia. destruct (HO He). lra. }
        assert (refof (tcs s) k = Some k) as Er by (rewrite refof_eq; destruct (Rltb_spec 0 (nth k (tcs s) 0%R)); auto; lra). rewrite Er.
        assert (column (with_cache s c) k = [xi_of (tcs s) (map (Rmax 0) mc) k]) as ->.
        { unfold column, response. cbn [with_cache sm_ev sm_corr]. destruct (Z.eqb_spec (sm_ev s) 0); [lia|]. destruct (Z.ltb_spec (sm_ev s) 0); [|lia]. cbv zeta. cbn [map snd].
          rewrite combine_nth' by (unfold c; cbn [ca_xi ca_kref]; rewrite ?map_length, ?seq_length; auto; lia). cbn [fst]. unfold c. cbn [ca_xi]. rewrite nth_map_seq' by lia. reflexivity. }
        rewrite (weighted_single (with_cache s c)) ; [| simpl; lia | | rewrite A4 by lia; unfold width; destruct (Z.ltb_spec 0 (sm_ev s)); lia].
        + f_equal. unfold tws. rewrite nth_map_seq' by lia. reflexivity.
        + rewrite <- Hrow. unfold row0. cbn [with_cache sm_ev]. destruct (Z.ltb_spec 0 (sm_ev s)); [lia|reflexivity].
      - rewrite nth_map_seq' by lia. unfold mw0. destruct (Z.ltb_spec 0 (sm_ev s)) as [He'|He'].
        + assert (response (with_cache s c) k = response s k) as Er by (unfold response; cbn [with_cache sm_ev]; destruct (Z.eqb_spec (sm_ev s) 0); [lia|]; destruct (Z.ltb_spec (sm_ev s) 0); [lia|reflexivity]).
          unfold column. rewrite Er. unfold weighted, window, k0_of, width. cbn [with_cache sm_ev sm_eb]. destruct (Z.ltb_spec 0 (sm_ev s)); [|lia]. reflexivity.
        + assert (sm_ev s = 0%Z) as E0 by lia. assert (column (with_cache s c) k = [1%R]) as -> by (unfold column, response; cbn [with_cache sm_ev]; rewrite E0; reflexivity).
          rewrite (weighted_single (with_cache s c)); [unfold tw_of; cbn [with_cache sm_eb sm_spec]; rewrite Rmult_1_l; reflexivity | simpl; lia | unfold window, k0_of, response; cbn [with_cache sm_ev]; rewrite E0; reflexivity | rewrite A4 by lia; unfold width; destruct (Z.ltb_spec 0 (sm_ev s)); lia]. }
    assert (length (ca_meas_wt c) = sm_nb s) as Lmw by (unfold c; cbn [ca_meas_wt]; now rewrite map_length, seq_length).
    assert (total_of (fs_ed_wt f) k1 k2 = total_of (ca_meas_wt c) k1 k2) as -> by (unfold total_of; apply Rsum_ext; intros k Hin; apply in_seq in Hin; apply Hmain; lia).
    destruct (npred_flag use cfg =? 0)%Z eqn:Efl.
    + specialize (Hfl eq_refl). assert (ca_true_wt c = ca_meas_wt c) as ->.
      { unfold c. cbn [ca_true_wt ca_meas_wt]. unfold tws. apply map_ext_in. intros k Hin. apply in_seq in Hin. unfold mw_of. rewrite Hfl. simpl. rewrite nth_map_seq' by lia. unfold mw0. rewrite Hfl. reflexivity. }
      apply sum_ok. lia.
    + apply sum_ok. lia.
  - intros Hnn. unfold NpredValue. rewrite E. cbn [obind fst]. unfold summed_counts.
    assert (forall k, k1 <= k < k2 -> nth k (fs_ed f) 0%R = nth k (ca_meas c) 0%R) as Hmain.
    { intros k Hkk. specialize (Hnn k Hkk). destruct (Hf k ltac:(simpl; lia)) as (H1 & _). cbv zeta in H1. unfold no_counts in H1. cbn [fs_ed] in H1. rewrite Hz, Rplus_0_l, Rmult_1_l in H1.
      destruct (Z.ltb_spec (sm_ev s) 0) as [He|He].
      - rewrite H1. apply (C31_rescaled_map d s first c b U He E). lia.
      - assert (nth k (fs_ed f) 0%R = m0 s k) as Hm.
        { rewrite H1. assert (response (with_cache s c) k = response s k) as Er by (unfold response; cbn [with_cache sm_ev]; destruct (Z.eqb_spec (sm_ev s) 0); [reflexivity|]; destruct (Z.ltb_spec (sm_ev s) 0); [lia|reflexivity]).
          unfold m0. destruct (Z.ltb_spec 0 (sm_ev s)).
          - unfold over_pixels, counts_at. rewrite Er. reflexivity.
          - assert (sm_ev s = 0%Z) as E0 by lia. unfold true_counts, over_pixels, counts_at. apply Rsum_ext. intros p _. rewrite Er. unfold response. rewrite E0. cbn [Z.eqb]. unfold Rsum. cbn [map fold_right fst snd].
            change (bin_counts (with_cache s c)) with (bin_counts s). cbn [with_cache sm_spec sm_eb]. ring. }
        unfold c. cbn [ca_meas]. rewrite Em by lia. assert (nth k mc 0%R = m0 s k) as ->.
        { unfold raw_meas in HR. destruct (Z.ltb_spec (sm_ev s) 0); [lia|]. rewrite HR. now rewrite nth_map_seq' by lia. }
        rewrite <- Hm. now rewrite Rmax_right. }
    assert (length (ca_meas c) = sm_nb s) as Lm by (unfold c; cbn [ca_meas]; rewrite map_length; auto).
    destruct (npred_flag use cfg =? 0)%Z eqn:Efl.
    + specialize (Hfl eq_refl). rewrite sum_ok by (unfold c; cbn [ca_true]; lia). f_equal. unfold total_of. apply Rsum_ext. intros k Hin. apply in_seq in Hin. rewrite Hmain by lia. unfold c. cbn [ca_true ca_meas]. rewrite nth_tcs by lia.
      rewrite Em by lia. unfold raw_meas in HR. rewrite Hfl in HR. simpl in HR. rewrite HR. rewrite nth_map_seq' by lia. unfold m0. rewrite Hfl. simpl.
      symmetry. apply Rmax_right. destruct (Hf k ltac:(simpl; lia)) as (H1 & _). specialize (Hnn k ltac:(lia)). specialize (Hmain k ltac:(lia)). rewrite Hmain in Hnn.
      unfold no_counts in H1. cbn [fs_ed] in H1. rewrite Hz, Rplus_0_l, Rmult_1_l in H1. rewrite Hmain in H1.
      assert (over_pixels (with_cache s c) (counts_at (with_cache s c) (sm_spec (with_cache s c)) k) = true_counts s k) as Ht.
      { unfold true_counts, over_pixels, counts_at. apply Rsum_ext. intros p _. unfold response. cbn [with_cache sm_ev]. rewrite Hfl. cbn [Z.eqb]. unfold Rsum. cbn [map fold_right fst snd]. change (bin_counts (with_cache s c)) with (bin_counts s). cbn [with_cache sm_eb sm_spec]. ring. }
      rewrite Ht in H1. rewrite <- H1. auto.
    + rewrite sum_ok by lia. f_equal. unfold total_of. apply Rsum_ext. intros k Hin. apply in_seq in Hin. symmetry. apply Hmain. lia.
Qed.
Print Assumptions C48_free_equals_fixed_partial.
(** True counts 1 and 0: the second bin refers to the first. *)
Example C48_case :
  let s := exs (-1) [1; 1; 1]%R [1; 1; 1]%R in
  updatable exd2 s true /\ sm_ev s = map_ev true (-1) /\ forall c b, drm_update exd2 s true = Ok (c, b) -> forall k, k < 2 -> own_planes (with_cache s c) k.
Proof.
  intros s. assert (updatable exd2 s true) as U by (apply exs_up; [lia|lra]). split; auto. split; auto. intros c b E k Hk _.
  destruct (C31_corrections_partial exd2 s true U) as (c' & b' & E' & L1 & L2 & L3 & L4 & _ & _ & H). rewrite E in E'. injection E' as <- <-.
  cbn [with_cache sm_corr]. rewrite combine_nth' by (rewrite ?L3, ?L4; auto). cbn [snd]. rewrite (nth_indep _ (-1)%Z 0%Z) by (rewrite L4; auto).
  destruct (H k Hk) as (Ht & _ & Hr & _). rewrite (proj2 (Hr k ltac:(split; [lia|]; split; [rewrite Ht; destruct k as [|[|]]; [unfold s; rewrite (proj1 (exs_true _ _ _ _ _ _ _)); lra|unfold s; rewrite (proj2 (exs_true _ _ _ _ _ _ _)); lra|lia]|intros; lia]))).
  rewrite Nat.eqb_refl. lia.
Qed.
(** What is missing: with a reference bin the free source is weighted by the reference plane,
    the fixed one by its own. *)
Theorem C48_reference_bin_refuted :
  exists d s c b f, updatable d s true /\ is_full s /\ drm_update d s true = Ok (c, b) /\ addFixedNpreds (no_counts (sm_nb s)) (with_cache s c) false = Ok f /\
    NpredValue d s true (npred_flag true (sm_ev s)) true 0 2 <> Ok (total_of (fs_ed_wt f) 0 2).
Proof.
  set (s := exs (-1) [1; 0; 0]%R [1; 1; 1]%R). assert (updatable exd2 s true) as U by (apply exs_up; [lia|lra]).
  destruct (update_exists exd2 s true U) as (npreds & wn & mc & b & EA & HA & Hfull & HR & HL & Hx & E).
  eexists exd2, s, _, b. match type of E with _ = Ok (?cc, _) => set (c := cc) in * end.
  pose proof (with_cache_ok exd2 s true c b U E) as OK'.
  assert (npred_arrays (with_cache s c) = Ok (npreds, wn)) as EA' by (rewrite <- EA; reflexivity).
  destruct (addFixed_wt (with_cache s c) OK' (no_counts (sm_nb s)) false npreds wn EA' HA) as (f & Ef & _ & Hwt); [repeat split|].
  exists f. split; auto. split; [eexists; reflexivity|]. split; [exact E|]. split; [exact Ef|].
  unfold NpredValue. rewrite E. cbn [obind fst]. unfold summed_counts. change (npred_flag true (sm_ev s) =? 0)%Z with false. cbv iota.
  rewrite sum_ok by (split; [lia|]; unfold c; cbn [ca_meas_wt]; rewrite map_length, seq_length; simpl; lia). intros Heq. injection Heq as Heq. revert Heq.
  assert (tcs s = [1; 0]%R) as Et. { unfold tcs. cbn [sm_nb s exs seq map]. unfold s. rewrite (proj1 (exs_true _ _ _ _ _ _ _)), (proj2 (exs_true _ _ _ _ _ _ _)). repeat f_equal; lra. }
  assert (mc = [1 / 2; 1 / 2]%R) as Emc.
  { destruct (Hx ltac:(reflexivity)) as (ext & He & ->). rewrite (ext0 exd2 _ _ eq_refl He), Et. cbn [sm_nb s exs seq map]. unfold folded, Rsum, entry, dr_ntrue. simpl. f_equal; [lra|f_equal; lra]. }
  assert (map (Rmax 0) mc = [1 / 2; 1 / 2]%R) as Emc' by (rewrite Emc; cbn [map]; rewrite !Rmax_right by lra; reflexivity).
  assert (refof (tcs s) 0 = Some 0 /\ refof (tcs s) 1 = Some 0) as [R0 R1].
  { rewrite Et. rewrite !refof_eq. cbn [nth prevref]. rewrite refof_eq. cbn [nth]. destruct (Rltb_spec 0 1); [|lra]. destruct (Rltb_spec 0 0); [lra|]. auto. }
  unfold total_of. cbn [Nat.sub seq map]. rewrite !Hwt by (simpl; lia).
  assert (forall k, k < 2 -> nth k (ca_meas_wt c) 0%R = mw_of (sm_ev s) (tcs s) (map (Rmax 0) mc) (tws s wn) (map (mw0 s wn) (seq 0 (sm_nb s))) k) as Hmw by (intros k Hk; unfold c; cbn [ca_meas_wt]; rewrite nth_map_seq' by auto; reflexivity).
  rewrite !Hmw by lia.
  assert (forall k, k < 2 -> nth k wn [] = row_spec s k (seq 0 1)) as Hw by (intros; apply Hfull; [eexists; reflexivity|auto]).
  assert (tws s wn = [1; 0]%R) as Etw.
  { unfold tws. cbn [sm_nb s exs seq map]. unfold tw_of, disp. rewrite !Hw by lia. unfold row_spec, wsum, width, row0, weight, plane, pix, wts_of, Rsum. simpl. repeat f_equal; lra. }
  assert (response (with_cache s c) 0 = [(0, (1 / 2)%R)]) as Q0.
  { unfold response. cbn [with_cache sm_ev sm_corr sm_eb s exs Z.eqb Z.ltb Z.compare]. cbv zeta. unfold c. cbn [ca_xi ca_kref sm_nb s exs seq map combine nth fst snd]. fold s. unfold kref_of, xi_of. rewrite R0, Et, Emc'. cbn [nth].
    destruct (Rltb_spec 0 1); [|lra]. replace (1 / 2 / 1)%R with (1 / 2)%R by lra. reflexivity. }
  assert (response (with_cache s c) 1 = [(0, (1 / 2)%R)]) as Q1.
  { unfold response. cbn [with_cache sm_ev sm_corr sm_eb s exs Z.eqb Z.ltb Z.compare]. cbv zeta. unfold c. cbn [ca_xi ca_kref sm_nb s exs seq map combine nth fst snd]. fold s. unfold kref_of, xi_of. rewrite R1, Et, Emc'. cbn [nth].
    destruct (Rltb_spec 0 0); [lra|]. replace (1 / 2 / 1)%R with (1 / 2)%R by lra. reflexivity. }
  unfold mw_of. change (sm_ev s <? 0)%Z with true. cbv iota. unfold xi_of. rewrite R0, R1, Et, Emc', Etw. cbn [nth].
  unfold weighted, window, k0_of. rewrite Q0, Q1. unfold disp. rewrite !Hw by lia. 
  unfold no_counts, zeros, row_spec, wsum, width, row0, weight, plane, pix, wts_of, Rsum. simpl. lra.
Qed.
Print Assumptions C48_reference_bin_refuted.

(** C47: with the old method the reported gradient treats the correction factors as constants
    although they depend on the spectrum. *)
Theorem C47_rescaling_refuted :
  exists d s dc data base npred0 k1 k2 (Sp : R -> list R) dspec x0 (L : R -> R) c b g l,
    dc_ok s dc /\ updatable d (with_spec s (Sp x0)) true /\ is_full s /\ (sm_ev s < 0)%Z /\
    (forall t, t < length (sm_en s) -> derivable_pt_lim (fun x => nth t (Sp x) 0%R) x0 (nth t dspec 0%R)) /\
    (forall x, (0 < x)%R -> likelihood_free d s true (sm_ev s) dc data base npred0 k1 k2 Sp x = Ok (L x)) /\ (0 < x0)%R /\
    drm_update d (with_spec s (Sp x0)) true = Ok (c, b) /\ gradient (with_cache s c) dc data base k1 k2 (Sp x0) dspec = Ok g /\
    derivable_pt_lim L x0 l /\ g <> l.
Proof.
  set (s := exs (-1) [1; 0; 1]%R [1; 1; 1]%R). set (Sp := fun x => [x; 1; 1]%R). set (dc := mk_dc [] [0; 0; 0]).
  assert (forall x, with_spec s (Sp x) = exs (-1) [1; 0; 1]%R [x; 1; 1]%R) as Es by reflexivity.
  assert (forall x, (0 < x)%R -> updatable exd2 (with_spec s (Sp x)) true) as U by (intros x Hx; rewrite Es; apply exs_up; [lia|lra]).
  assert (dc_ok s dc) as DC.
  { split; [reflexivity|]. split; [reflexivity|]. split; [reflexivity|]. split; [intros [|[|k]] Hk; simpl in *; lia|constructor]. }
  assert (forall x, (0 < x)%R -> exists c b wn, drm_update exd2 (with_spec s (Sp x)) true = Ok (c, b) /\ length (ca_meas_wt c) = 2 /\ nth 0 (ca_meas_wt c) 0%R = (x / 2)%R /\ nth 1 (ca_meas_wt c) 0%R = (x / 2 + 1)%R /\
     ca_xi c = [1 / 2; x / 2 + 1]%R /\ ca_kref c = [-1; -1]%Z /\ (exists npreds, npred_arrays (with_spec s (Sp x)) = Ok (npreds, wn) /\ arrays_ok s npreds wn) /\ forall k, k < 2 -> nth k wn [] = row_spec s k (seq 0 1)) as Hup.
  { intros x Hx. destruct (update_exists exd2 (with_spec s (Sp x)) true (U x Hx)) as (npreds & wn & mc & b & EA & HA & Hfull & HR & HL & Hxx & E).
    eexists. exists b, wn. split; [exact E|]. cbn [ca_meas_wt ca_xi ca_kref].
    assert (tcs (with_spec s (Sp x)) = [x; 1]%R) as Et. { unfold tcs. rewrite Es. cbn [sm_nb exs seq map]. rewrite (proj1 (exs_true _ _ _ _ _ _ _)), (proj2 (exs_true _ _ _ _ _ _ _)). f_equal; [lra|f_equal; lra]. }
    assert (mc = [x / 2; x / 2 + 1]%R) as Emc.
    { destruct (Hxx ltac:(reflexivity)) as (ext & He & ->). rewrite (ext0 exd2 _ _ eq_refl He), Et. cbn [sm_nb s exs with_spec seq map]. unfold folded, Rsum, entry, dr_ntrue. simpl. f_equal; [lra|f_equal; lra]. }
    assert (map (Rmax 0) mc = [x / 2; x / 2 + 1]%R) as Emc' by (rewrite Emc; cbn [map]; rewrite !Rmax_right by lra; reflexivity).
    assert (refof [x; 1]%R 0 = Some 0 /\ refof [x; 1]%R 1 = Some 1) as [R0 R1].
    { rewrite !refof_eq. cbn [nth]. destruct (Rltb_spec 0 x); [|lra]. destruct (Rltb_spec 0 1); [|lra]. auto. }
    assert (forall k, k < 2 -> nth k wn [] = row_spec s k (seq 0 1)) as Hw by (intros; apply Hfull; [eexists; reflexivity|auto]).
    assert (tws (with_spec s (Sp x)) wn = [x; 1]%R) as Etw.
    { unfold tws. cbn [sm_nb with_spec s exs seq map]. unfold tw_of, disp. rewrite !Hw by lia. unfold row_spec, wsum, width, row0, weight, plane, pix, wts_of, Rsum, Sp. simpl. f_equal; [lra|f_equal; lra]. }
    rewrite Et, Emc', Etw. cbn [sm_nb sm_ev with_spec s exs seq map]. split; [reflexivity|].
    unfold mw_of, xi_of, kref_of. cbn [Z.ltb Z.compare nth]. rewrite R0, R1. cbn [nth]. destruct (Rltb_spec 0 x); [|lra]. destruct (Rltb_spec 0 1); [|lra].
    split; [field; lra|]. split; [field; lra|]. split; [f_equal; [field; lra|f_equal; field]|]. split; [reflexivity|]. split; [|exact Hw]. exists npreds. split; auto. }
  destruct (Hup 1%R ltac:(lra)) as (c & b & wn & Eu & Lw & W0 & W1 & Exi & Ekr & (npreds & EA & HA) & Hw).
  assert (sm_ok (with_cache (with_spec s (Sp 1%R)) c)) as OKc by (apply (with_cache_ok exd2 _ true c b); auto; apply U; lra).
  assert (dc_ok (with_cache (with_spec s (Sp 1%R)) c) dc) as DCc by exact DC.
  destruct (addFreeDeriv_gen (with_cache (with_spec s (Sp 1%R)) c) OKc dc DCc [1; 0; 0]%R [] 0 2 npreds wn) as (pn & Ep & Hpn); [exact EA|exact HA|reflexivity|reflexivity|simpl; lia|].
  exists exd2, s, dc, [0; 0]%R, [], 0%R, 0, 2, Sp, [1; 0; 0]%R, 1%R, (fun x => - (x + 1))%R, c, b, (fst pn + snd pn)%R, (- 1)%R.
  split; auto. split; [apply U; lra|]. split; [eexists; reflexivity|]. split; [reflexivity|]. split; [|split; [|split; [lra|split; [exact Eu|split; [|split]]]]].
  - intros [|[|[|t]]] Ht; simpl in Ht; try lia; [apply derivable_pt_lim_id|apply derivable_pt_lim_const|apply derivable_pt_lim_const].
  - intros x Hx. destruct (Hup x Hx) as (c' & b' & wn' & Eu' & Lw' & W0' & W1' & _). unfold likelihood_free. rewrite Eu'. cbn [obind fst].
    assert (sm_ok (with_cache (with_spec s (Sp x)) c')) as OKx by (apply (with_cache_ok exd2 _ true c' b'); auto; apply U; lra).
    destruct (addSourceCounts_ok (with_cache (with_spec s (Sp x)) c') OKx dc DC [] false eq_refl) as (m & Em & Lm & _). cbv zeta. rewrite Em. cbn [obind].
    unfold NpredValue. rewrite Eu'. cbn [obind fst]. unfold summed_counts. change (sm_ev s =? 0)%Z with false. cbv iota. rewrite sum_ok by (rewrite Lw'; lia). cbn [obind].
    rewrite (value_ok s dc DC [0; 0]%R eq_refl m _ 0 2 Lm ltac:(simpl; lia)).
    + f_equal. unfold total_of, Rsum. cbn [Nat.sub seq map fold_right]. rewrite W0', W1'. unfold plane_entries. simpl. lra.
    + intros k j Hk Hj. unfold plane_entries, dc in Hj. cbn [dc_first] in Hj. apply in_seq in Hj. destruct k as [|[|k]]; simpl in Hj; lia.
  - unfold gradient. cbn [with_cache with_spec sm_np sm_spec] in *.
    destruct (addSourceCounts_ok (with_cache (with_spec s (Sp 1%R)) c) OKc dc DCc [] false eq_refl) as (m & Em & Lm & _).
    change (with_spec (with_cache s c) (Sp 1%R)) with (with_cache (with_spec s (Sp 1%R)) c). rewrite Em. cbn [obind].
    destruct m; [|discriminate]. change (data_over_model dc [0; 0]%R (sm_np s) [] 0 2) with (@Ok (list R) []). cbn [obind]. rewrite Ep. reflexivity.
  - change (-1)%R with (IZR (-1)). replace (IZR (-1)) with (- (1 + 0))%R by lra. apply derivable_pt_lim_opp. apply (derivable_pt_lim_plus id (fun _ => 1%R)); [apply derivable_pt_lim_id|apply derivable_pt_lim_const].
  - rewrite Hpn. unfold Rsum. cbn [Nat.sub seq map fold_right]. unfold first_term, plane_entries. cbn [dc_first dc nth Nat.sub seq map].
    unfold weighted, window, k0_of, column, response. cbn [with_cache with_spec sm_ev sm_corr s exs Z.eqb Z.ltb Z.compare sm_eb]. cbv zeta. rewrite Exi, Ekr. unfold disp. rewrite !Hw by lia.
    unfold row_spec, wsum, width, row0, weight, plane, pix, wts_of, Rsum. simpl. lra.
Qed.
Print Assumptions C47_rescaling_refuted.

(** One added bin: the counts of the two outermost bins, taken at the second and third energy
    from the edge, determine a power law if both exceed the threshold and a straight line
    otherwise; the added bin is its value at the outermost energy. *)
Theorem C30_extrapolation :
  forall d c0 c1, 3 <= length (dr_en d) -> (forall i, i < length (dr_en d) -> (0 < nth i (dr_en d) 0)%R) ->
    (forall i, S i < length (dr_en d) -> (nth i (dr_en d) 0 < nth (S i) (dr_en d) 0)%R) ->
    let n := length (dr_en d) in let E i := nth i (dr_en d) 0%R in
    (forall a g, (/ 10000 < c0)%R -> (/ 10000 < c1)%R -> c0 = (a * Rpower (E 1%nat) g)%R -> c1 = (a * Rpower (E 2%nat) g)%R -> extrapolate_lo d c0 c1 = (a * Rpower (E 0%nat) g)%R) /\
    (forall a g, (c0 <= / 10000 \/ c1 <= / 10000)%R -> c0 = (a + g * E 1%nat)%R -> c1 = (a + g * E 2%nat)%R -> extrapolate_lo d c0 c1 = (a + g * E 0%nat)%R) /\
    (forall a g, (/ 10000000000 < c0)%R -> (/ 10000000000 < c1)%R -> c0 = (a * Rpower (E (n - 3)%nat) g)%R -> c1 = (a * Rpower (E (n - 2)%nat) g)%R -> extrapolate_hi d c0 c1 = (a * Rpower (E (n - 1)%nat) g)%R) /\
    (forall a g, (c0 <= / 10000000000 \/ c1 <= / 10000000000)%R -> c0 = (a + g * E (n - 3)%nat)%R -> c1 = (a + g * E (n - 2)%nat)%R -> extrapolate_hi d c0 c1 = (a + g * E (n - 1)%nat)%R).
Proof.
  intros d c0 c1 HL Hpos Hinc n E.
  assert (forall x y z, (0 < x)%R -> (0 < y)%R -> (0 < z)%R -> y <> z -> forall a g c0 c1, (0 < c0)%R -> (0 < c1)%R -> c0 = (a * Rpower y g)%R -> c1 = (a * Rpower z g)%R ->
     (c1 * exp (ln (x / z) / ln (y / z) * ln (c0 / c1)) = a * Rpower x g)%R) as Hpl.
  { intros x y z Hx Hy Hz Hyz a g a0 a1 H0 H1 E0 E1. assert (0 < a)%R as Ha.
    { assert (0 < Rpower y g)%R by apply exp_pos. destruct (Rlt_or_le 0 a); auto. nra. }
    assert (forall u v, (0 < u)%R -> (0 < v)%R -> ln (u / v) = (ln u - ln v)%R) as Hd.
    { intros u v Hu Hv. unfold Rdiv. rewrite ln_mult, ln_Rinv by (auto; apply Rinv_0_lt_compat; auto). reflexivity. }
    assert (ln y - ln z <> 0)%R as Hne by (intros H; apply Hyz; apply ln_inv; auto; lra).
    assert (ln (a0 / a1) = g * (ln y - ln z))%R as Hr.
    { rewrite Hd, E0, E1 by auto. unfold Rpower. rewrite !ln_mult by (auto; apply exp_pos). rewrite !ln_exp. ring. }
    rewrite Hr, (Hd x z), (Hd y z) by auto. replace ((ln x - ln z) / (ln y - ln z) * (g * (ln y - ln z)))%R with (g * ln x + - (g * ln z))%R by (field; auto).
    rewrite exp_plus, E1. unfold Rpower. rewrite exp_Ropp. field. apply Rgt_not_eq, exp_pos. }
  assert (forall x y z a g, y <> z -> ((x - z) / (y - z) * (a + g * y - (a + g * z)) + (a + g * z) = a + g * x)%R) as Hli by (intros; field; lra).
  assert (E 1%nat < E 2%nat)%R as H12 by (apply (Hinc 1); lia).
  assert (dr_nmeas d = n - 1) as En by reflexivity. assert (2 <= n - 1) as H2 by (unfold n; lia).
  assert (E (n - 3)%nat < E (n - 2)%nat)%R as H32 by (replace (n - 2) with (S (n - 3)) by (unfold n; lia); apply Hinc; unfold n; lia).
  replace (n - 3) with (n - 1 - 2) in * by lia. replace (n - 2) with (n - 1 - 1) in * by lia.
  split; [|split; [|split]]; intros a g.
  - intros H0 H1 E0 E1. unfold extrapolate_lo. destruct (Rltb_spec (/ 10000) c0); [|lra]. destruct (Rltb_spec (/ 10000) c1); [|lra]. cbn [andb].
    unfold log_ratio_lo. rewrite En. destruct (Nat.leb_spec 2 (n - 1)); [|lia]. apply Hpl; auto; try (apply Hpos; unfold n in *; lia); try lra; unfold en, E in *; lra.
  - intros Hc E0 E1. unfold extrapolate_lo. assert (Rltb (/ 10000) c0 && Rltb (/ 10000) c1 = false) as -> by (destruct (Rltb_spec (/ 10000) c0), (Rltb_spec (/ 10000) c1); auto; lra).
    unfold diff_ratio_lo. rewrite En. destruct (Nat.leb_spec 2 (n - 1)); [|lia]. rewrite E0, E1. apply Hli. unfold en, E in *. lra.
  - intros H0 H1 E0 E1. unfold extrapolate_hi. destruct (Rltb_spec (/ 10000000000) c1); [|lra]. destruct (Rltb_spec (/ 10000000000) c0); [|lra]. cbn [andb].
    unfold log_ratio_hi. cbv zeta. rewrite En. destruct (Nat.leb_spec 2 (n - 1)); [|lia]. apply Hpl; auto; try (apply Hpos; unfold n in *; lia); try lra; unfold en, E in *; lra.
  - intros Hc E0 E1. unfold extrapolate_hi. assert (Rltb (/ 10000000000) c1 && Rltb (/ 10000000000) c0 = false) as -> by (destruct (Rltb_spec (/ 10000000000) c0), (Rltb_spec (/ 10000000000) c1); auto; lra).
    unfold diff_ratio_hi. cbv zeta. rewrite En. destruct (Nat.leb_spec 2 (n - 1)); [|lia]. rewrite E0, E1. apply Hli. unfold en, E in *. lra.
Qed.
Print Assumptions C30_extrapolation.
Example C30_extrapolation_case : (forall i, i < 3 -> (0 < nth i (dr_en exd) 0)%R) /\ (forall i, S i < 3 -> (nth i (dr_en exd) 0 < nth (S i) (dr_en exd) 0)%R).
Proof. split; intros [|[|[|i]]] Hi; simpl; lra || lia. Qed.

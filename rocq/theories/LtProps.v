(** C59, C60: good time, livetime and exposure. *)
From Coq Require Import Reals Lra Lia.
From Coquelicot Require Import Coquelicot.
From Verif Require Import Base AccumModel AccumProofs EvtModel EvtProofs LtModel LtSpec LtProofs LtLoad LtSc.
Local Open Scope R_scope.

Ltac decide_R := repeat match goal with
  | |- context [Rltb ?a ?b] => destruct (Rltb_spec a b); try lra
  | |- context [Rleb ?a ?b] => destruct (Rleb_spec a b); try lra
  | |- context [Reqb ?a ?b] => destruct (Reqb_spec a b); try lra
  end.

(** * C59 *)
(** The fraction returned for an interval is the share of it that lies in all time cuts and in some
    good time interval. *)
Theorem C59_fraction : forall cuts gtis start stop, start < stop -> in_order gtis -> gtis <> [] ->
  exists accepted fraction, accept_interval start stop cuts gtis = Ok (accepted, fraction) /\
    duration (good cuts gtis) start stop (fraction * (stop - start)) /\ 0 <= fraction <= 1 /\ (accepted = false -> fraction = 0).
Proof.
  intros cuts gtis s e L O N. destruct (accept_ok cuts gtis s e L O) as (ok & f & E & D & B & F). exists ok, f. repeat split; auto; try apply B.
  revert D. apply (is_RInt_ext (V := R_NormedModule)). intros t _. unfold indicator. now rewrite wanted_good.
Qed.
Print Assumptions C59_fraction.
(** Without good time intervals all of the time in the cuts is taken. *)
Theorem C59_no_gtis : forall cuts start stop, start < stop ->
  exists accepted fraction, accept_interval start stop cuts [] = Ok (accepted, fraction) /\
    duration (fun t => forallb (inside t) cuts) start stop (fraction * (stop - start)).
Proof.
  intros cuts s e L. destruct (accept_ok cuts [] s e L I) as (ok & f & E & D & _). exists ok, f. split; auto.
  revert D. apply (is_RInt_ext (V := R_NormedModule)). intros t _. unfold indicator, wanted. now rewrite andb_true_r.
Qed.
Print Assumptions C59_no_gtis.
(** ... which is not the time that is in some good time interval: if no good time is left, everything is good. *)
Theorem C59_no_gtis_refuted : ~ (forall cuts gtis start stop accepted fraction, start < stop -> in_order gtis ->
  accept_interval start stop cuts gtis = Ok (accepted, fraction) -> duration (good cuts gtis) start stop (fraction * (stop - start))).
Proof.
  intros H. destruct (C59_no_gtis [] 0 1 ltac:(lra)) as (ok & f & E & D). specialize (H [] [] 0 1 ok f ltac:(lra) I E).
  apply (is_RInt_unique (V := R_CompleteNormedModule)) in D, H. rewrite <- D in H. unfold good in H. cbn [forallb existsb andb] in H.
  rewrite (is_RInt_unique (V := R_CompleteNormedModule) _ 0 1 0) in H by (apply zero_RInt; [lra|reflexivity]).
  rewrite (is_RInt_unique (V := R_CompleteNormedModule) _ 0 1 (1 * (1 - 0))) in H by (apply const_RInt; [lra|reflexivity]). lra.
Qed.
(** Intervals that run backwards are refused, those without extent have no good time. *)
Theorem C59_degenerate : forall cuts gtis start stop,
  (stop < start -> accept_interval start stop cuts gtis = Throw) /\ (start = stop -> accept_interval start stop cuts gtis = Ok (false, 0)).
Proof. intros. unfold accept_interval. split; intros H; destruct (Rltb_spec stop start); try lra; try reflexivity. destruct (Reqb_spec start stop); [reflexivity|lra]. Qed.
Print Assumptions C59_degenerate.
(** The good time intervals have to be in order ... *)
Theorem C59_unsorted_refuted : ~ (forall cuts gtis start stop accepted fraction, start < stop -> gtis <> [] -> (forall g, In g gtis -> fst g <= snd g) ->
  accept_interval start stop cuts gtis = Ok (accepted, fraction) -> duration (good cuts gtis) start stop (fraction * (stop - start))).
Proof.
  intros H. specialize (H [] [(10, 20); (0, 5)] 10 20 true 0 ltac:(lra) ltac:(discriminate)).
  assert (E : accept_interval 10 20 [] [(10, 20); (0, 5)] = Ok (true, 0)).
  { unfold accept_interval. decide_R. cbn [cut_down fst snd]. unfold gti_window. cbn -[Rltb IZR Rmax Rmin overlap]. decide_R.
    cbn -[Rltb IZR Rmax Rmin overlap]. decide_R. cbn -[Rltb IZR Rmax Rmin overlap].
    rewrite (overlap_before (0, 5) (10, 20)) by (simpl; lra). decide_R. simpl. f_equal. f_equal. field. }
  specialize (H ltac:(intros g [<-|[<-|[]]]; simpl; lra) E). apply (is_RInt_unique (V := R_CompleteNormedModule)) in H.
  rewrite (is_RInt_unique (V := R_CompleteNormedModule) _ 10 20 (1 * (20 - 10))) in H; [lra|]. apply const_RInt; [lra|].
  intros t Ht. unfold indicator, good. cbn [forallb existsb andb]. destruct (inside_spec t (10, 20)) as [|K]; [reflexivity|]. simpl in K. lra.
Qed.
(** ... and must not overlap: the same time is counted twice. *)
Theorem C59_overlap_refuted : ~ (forall cuts gtis start stop accepted fraction, start < stop -> gtis <> [] -> (forall g, In g gtis -> fst g <= snd g) ->
  (forall i j, (i <= j)%nat -> (j < length gtis)%nat -> fst (nth i gtis (0, 0)) <= fst (nth j gtis (0, 0))) ->
  accept_interval start stop cuts gtis = Ok (accepted, fraction) -> duration (good cuts gtis) start stop (fraction * (stop - start))).
Proof.
  intros H. specialize (H [] [(0, 10); (5, 10)] 0 40 true (3 / 8) ltac:(lra) ltac:(discriminate)).
  assert (E : accept_interval 0 40 [] [(0, 10); (5, 10)] = Ok (true, 3 / 8)).
  { assert (V1 : overlap (0, 10) (0, 40) = 10). { unfold overlap. cbn [fst snd]. rewrite Rmax_left, Rmin_left by lra. decide_R. }
    assert (V2 : overlap (5, 10) (0, 40) = 5). { unfold overlap. cbn [fst snd]. rewrite Rmax_left, Rmin_left by lra. decide_R. }
    unfold accept_interval. decide_R. cbn [cut_down fst snd]. unfold gti_window. cbn -[Rltb IZR Rmax Rmin overlap Rdiv]. rewrite ?V1, ?V2. decide_R.
    cbn -[Rltb IZR Rmax Rmin overlap Rdiv]. rewrite ?V1, ?V2. decide_R. cbn -[Rltb IZR Rmax Rmin overlap Rdiv]. rewrite ?V1, ?V2. decide_R.
    cbn -[Rltb IZR Rmax Rmin overlap Rdiv]. rewrite ?V1, ?V2. decide_R. cbn -[IZR Rdiv]. do 2 f_equal. lra. }
  specialize (H ltac:(intros g [<-|[<-|[]]]; simpl; lra) ltac:(intros [|[|i]] [|[|j]] ? ?; simpl in *; try lra; lia) E). apply (is_RInt_unique (V := R_CompleteNormedModule)) in H.
  rewrite (is_RInt_unique (V := R_CompleteNormedModule) _ 0 40 (1 * (10 - 0))) in H; [lra|].
  apply part_RInt with 0 10; try lra; [intros t Ht|intros t Ht|apply const_RInt; [lra|]; intros t Ht]; unfold indicator, good; cbn [forallb existsb andb];
    destruct (inside_spec t (0, 10)) as [K|K], (inside_spec t (5, 10)) as [K'|K']; simpl in *; try reflexivity; lra.
Qed.
(** Loading a spacecraft table: every row gives its livetime times its share of good time, in the
    order of the table, and nothing else is filled; rows that fill nothing are left aside. *)
Theorem C59_load : forall (D : Type) cuts gtis tmin tmax (rows : list (ft2 D)) before count,
  in_order gtis -> gti_limits gtis = Ok (tmin, tmax) -> rows_in_order rows -> rows <> [] ->
  exists fs, load cuts gtis tmin tmax rows (before, count) = Ok (before ++ fs, (count + length fs)%nat) /\
    filter some_livetime fs = filter some_livetime (map (expected_fill cuts gtis) rows).
Proof. intros D cuts gtis tmin tmax rows before count O Lim W NE. destruct (limits_ok _ _ _ Lim) as (N & _). exact (load_ok cuts gtis O N tmin tmax rows (before, count) Lim W NE). Qed.
Print Assumptions C59_load.
(** Whatever depends linearly on the livetime is the sum over the rows. *)
Lemma filtered_sum {D : Type} (w : D -> R) (l : list (D * R * R)) :
  Rsum (map (fun f => w (fst (fst f)) * snd (fst f)) (filter some_livetime l)) = Rsum (map (fun f => w (fst (fst f)) * snd (fst f)) l).
Proof.
  unfold Rsum. induction l as [|f l IH]; simpl; auto. unfold some_livetime at 1. destruct (Reqb_spec (snd (fst f)) 0) as [E|E]; simpl; rewrite IH; auto. rewrite E. ring.
Qed.
Theorem C59_load_sum : forall (D : Type) (w : D -> R) cuts gtis tmin tmax (rows : list (ft2 D)) fs count,
  in_order gtis -> gti_limits gtis = Ok (tmin, tmax) -> rows_in_order rows -> rows <> [] -> load cuts gtis tmin tmax rows ([], 0%nat) = Ok (fs, count) ->
  Rsum (map (fun f => w (fst (fst f)) * snd (fst f)) fs) =
  Rsum (map (fun r => w (row_dir r) * (row_live r * good_share cuts gtis (row_start r) (row_stop r))) rows).
Proof.
  intros D w cuts gtis tmin tmax rows fs count O Lim W NE E. destruct (C59_load D cuts gtis tmin tmax rows [] 0 O Lim W NE) as (fs' & E' & F).
  rewrite E' in E. injection E as E _. simpl in E. subst fs'. rewrite <- filtered_sum, F, filtered_sum, map_map. reflexivity.
Qed.
Print Assumptions C59_load_sum.
(** An empty table is not survived, although the code means to do nothing with it. *)
Theorem C59_load_empty_refuted : forall (D : Type) cuts gtis tmin tmax acc, @load D cuts gtis tmin tmax [] acc = UB.
Proof. reflexivity. Qed.
(** The bins in inclination go down from 1 to the smallest cosine. *)
Theorem C59_bins : forall sqrtbins cosmin nbins, (0 < nbins)%nat -> cosmin < 1 ->
  length (cos_bins sqrtbins cosmin nbins) = S nbins /\ nth 0 (cos_bins sqrtbins cosmin nbins) 0 = 1 /\ nth nbins (cos_bins sqrtbins cosmin nbins) 0 = cosmin /\
  forall i j, (i < j)%nat -> (j <= nbins)%nat -> nth j (cos_bins sqrtbins cosmin nbins) 0 < nth i (cos_bins sqrtbins cosmin nbins) 0.
Proof.
  intros sq c n Hn Hc. assert (P : 0 < INR n) by (apply lt_0_INR; lia).
  assert (G : forall i, (i <= n)%nat -> nth i (cos_bins sq c n) 0 = 1 - (if sq then INR i / INR n * (INR i / INR n) else INR i / INR n) * (1 - c)).
  { intros i Hi. unfold cos_bins. rewrite (map_nth0 _ _ _ 0%nat) by (rewrite seq_length; lia). rewrite seq_nth by lia. simpl. destruct sq; reflexivity. }
  split; [unfold cos_bins; rewrite map_length, seq_length; lia|]. split; [|split].
  - rewrite G by lia. simpl. destruct sq; field; lra.
  - rewrite G by lia. destruct sq; field; lra.
  - intros i j Hij Hj. rewrite !G by lia. apply lt_INR in Hij. pose proof (pos_INR i).
    assert (A : INR i / INR n < INR j / INR n) by (apply Rmult_lt_compat_r; auto; now apply Rinv_0_lt_compat).
    assert (B : 0 <= INR i / INR n) by (apply Rmult_le_pos; auto; left; now apply Rinv_0_lt_compat).
    set (x := INR i / INR n) in *. set (y := INR j / INR n) in *. apply Rplus_lt_compat_l, Ropp_lt_contravar. apply Rmult_lt_compat_r; [lra|].
    destruct sq; [|exact A]. apply Rmult_le_0_lt_compat; auto.
Qed.
Print Assumptions C59_bins.
(** A case: two good time intervals, a time cut, and rows of which some are partly good. *)
Definition case_gtis : list (R * R) := [(5, 15); (25, 100)].
Definition case_rows : list (ft2 bool) := [mk_ft2 0 10 8 true; mk_ft2 10 30 16 false; mk_ft2 200 230 30 true].
Example C59_case : in_order case_gtis /\ gti_limits case_gtis = Ok (5, 100) /\ rows_in_order case_rows /\ case_rows <> [] /\
  good_share [(0, 28)] case_gtis 10 30 = 2 / 5.
Proof.
  repeat split; simpl; try lra; try discriminate.
  - unfold gti_limits, case_gtis. cbn [fold_left fst snd]. decide_R. reflexivity.
  - repeat constructor; simpl; lra.
  - unfold good_share. rewrite (is_RInt_unique (V := R_CompleteNormedModule) _ 10 30 (1 * (15 - 10) + (0 + 1 * (28 - 25)) + 0)); [field|].
    assert (X : forall t, indicator (good [(0, 28)] case_gtis) t = if inside t (0, 28) && (inside t (5, 15) || inside t (25, 100)) then 1 else 0).
    { intros t. unfold indicator, good, case_gtis. cbn [forallb existsb]. rewrite andb_true_r, orb_false_r. reflexivity. }
    assert (Y : forall t, indicator (good [(0, 28)] case_gtis) t = if Rlt_dec t 0 then 0 else if Rlt_dec t 5 then 0 else if Rlt_dec t 15 then 1 else if Rlt_dec t 25 then 0 else if Rlt_dec t 28 then 1 else 0).
    { intros t. rewrite X. destruct (inside_spec t (0, 28)), (inside_spec t (5, 15)), (inside_spec t (25, 100)); simpl in *; repeat destruct Rlt_dec; try lra; try reflexivity. }
    assert (C : forall a b c, is_RInt (indicator (good [(0, 28)] case_gtis)) a b c -> forall d e, is_RInt (indicator (good [(0, 28)] case_gtis)) b d e -> is_RInt (indicator (good [(0, 28)] case_gtis)) a d (c + e)).
    { intros a b c H1 d e H2. apply (is_RInt_Chasles (V := R_NormedModule) _ a b d); auto. }
    apply C with 28; [apply C with 15; [|apply C with 25]|]; try (apply const_RInt; [lra|]; intros t Ht; rewrite Y; repeat destruct Rlt_dec; lra).
    + apply zero_RInt; [lra|]. intros t Ht. rewrite Y. repeat destruct Rlt_dec; lra.
    + apply zero_RInt; [lra|]. intros t Ht. rewrite Y. repeat destruct Rlt_dec; lra.
Qed.

(** * C60 *)
(** Reading spacecraft files: the intervals kept are those of the files, one file after the other,
    that lie in the time range widened by a minute at each end ... *)
Theorem C60_read : forall printed tstart tstop files sc, sc_read printed tstart tstop files = Ok sc ->
  exists rows, sc = columns rows /\ rows <> [] /\
    rows = concat (map (filter (fun r => (Rleb (printed (tstart - 60)) (row_start r) && Rleb (row_stop r) (printed (tstop + 60))) &&
                                          (Rleb (tstart - 60) (row_stop r) && Rleb (row_start r) (tstop + 60)))) files).
Proof.
  intros pr a b files sc H. unfold sc_read in H. destruct (mfold (sc_read_file pr a b) files sc_clear) as [s| |] eqn:E; try discriminate. cbn [obind] in H.
  destruct (Nat.eqb_spec (length (sc_start s)) 0) as [|Z]; [discriminate|]. injection H as <-.
  change sc_clear with (columns []) in E. apply read_ok in E; [|intros i ? ?; simpl in *; lia]. destruct E as (-> & _). simpl in *.
  exists (concat (map (kept pr a b) files)). split; auto. split. { intros C. apply Z. rewrite C. reflexivity. }
  f_equal. apply map_ext. intros l. unfold kept. induction l as [|r l IH]; simpl; auto.
  destruct (Rleb (pr (a - 60)) (row_start r) && Rleb (row_stop r) (pr (b + 60))); simpl; auto. rewrite IH.
  destruct (Rltb_spec (row_stop r) (a - 60)), (Rltb_spec (b + 60) (row_start r)), (Rleb_spec (a - 60) (row_stop r)), (Rleb_spec (row_start r) (b + 60)); simpl; try lra; reflexivity.
Qed.
Print Assumptions C60_read.
(** ... and their start times do not go back, except perhaps from the first to the second. *)
Theorem C60_order_partial : forall printed tstart tstop files sc, sc_read printed tstart tstop files = Ok sc ->
  forall i j, (0 < i)%nat -> (i <= j)%nat -> (j < length (sc_start sc))%nat -> nth i (sc_start sc) 0 <= nth j (sc_start sc) 0.
Proof.
  intros pr a b files sc H. unfold sc_read in H. destruct (mfold (sc_read_file pr a b) files sc_clear) as [s| |] eqn:E; try discriminate. cbn [obind] in H.
  destruct (Nat.eqb_spec (length (sc_start s)) 0) as [|Z]; [discriminate|]. injection H as <-.
  change sc_clear with (columns []) in E. apply read_ok in E; [|intros i ? ?; simpl in *; lia]. destruct E as (_ & T).
  intros i j Hi Hij. induction Hij as [|j Hij IH]; intros Hj; [lra|]. specialize (IH ltac:(lia)). pose proof (T j ltac:(lia) Hj). lra.
Qed.
Print Assumptions C60_order_partial.
Theorem C60_order_refuted : exists files sc, sc_read (fun t => t) 0 1000 files = Ok sc /\ (1 < length (sc_start sc))%nat /\ nth 1 (sc_start sc) 0 < nth 0 (sc_start sc) 0.
Proof.
  exists [[mk_ft2 500 530 30 ((1, 0, 0), (0, 0, 1))]; [mk_ft2 100 130 30 ((1, 0, 0), (0, 0, 1))]],
    (columns [mk_ft2 500 530 30 ((1, 0, 0), (0, 0, 1)); mk_ft2 100 130 30 ((1, 0, 0), (0, 0, 1))]). split.
  - unfold sc_read. cbn [mfold]. unfold sc_read_file, sc_push. cbn -[Rltb Rleb IZR Rplus Rminus Rmult].
    do 4 (decide_R; cbn -[Rltb Rleb IZR Rplus Rminus Rmult]). reflexivity.
  - cbn [columns sc_start map length nth row_start]. split; [lia|lra].
Qed.
(** The livetime fraction at a time is that of the interval that contains it, and zero between intervals. *)
Theorem C60_livetimefrac : forall rows t, rows_in_order rows -> rows <> [] ->
  row_start (nth 0 rows row0) <= t <= row_stop (nth (length rows - 1) rows row0) ->
  exists v, livetimefrac (columns rows) t = Ok v /\
    (forall r, In r rows -> row_start r <= t < row_stop r -> v = row_live r / (row_stop r - row_start r)) /\
    ((forall r, In r rows -> ~ (row_start r <= t <= row_stop r)) -> v = 0).
Proof.
  intros rows t W NE (A & B). destruct (livetime_ok rows t W NE A) as (v & i & E & Hi & S1 & S2 & V). { unfold tol. lra. }
  destruct (rows_nth rows row0 W) as (P & Q). exists v. split; auto. split.
  - intros r Hr (R1 & R2). apply (In_nth _ _ row0) in Hr. destruct Hr as (k & Hk & <-).
    assert (K : k = i).
    { destruct (lt_eq_lt_dec k i) as [[H|H]|H]; auto; exfalso.
      - pose proof (Q k i H Hi). lra.
      - destruct S2 as [S2|S2]; [lia|]. destruct (Nat.eq_dec k (S i)) as [->|Nk]; [lra|]. pose proof (Q (S i) k ltac:(lia) Hk). pose proof (P (S i) ltac:(lia)). lra. }
    subst k. destruct V as [[_ V]|[V _]]; [exact V|lra].
  - intros H. destruct V as [[V _]|[_ V]]; auto. exfalso. apply (H (nth i rows row0)); [now apply nth_In|lra].
Qed.
Print Assumptions C60_livetimefrac.
(** The tolerance of the look-up does not help just before the first interval: the look-up accepts the
    time, and the livetime fraction throws. *)
Theorem C60_tolerance_refuted : forall rows t, rows_in_order rows -> rows <> [] ->
  row_start (nth 0 rows row0) - tol <= t < row_start (nth 0 rows row0) -> time_index (columns rows) t = Ok None /\ livetimefrac (columns rows) t = Throw.
Proof.
  intros rows t W NE (A & B). destruct (rows_nth rows row0 W) as (P & Q). assert (T : 0 < tol) by (unfold tol; lra). assert (L : (0 < length rows)%nat) by (destruct rows; [congruence|simpl; lia]).
  destruct (time_index_ok rows t W NE A) as (u & E & Lu & Lo & Hi).
  { pose proof (P (length rows - 1)%nat ltac:(lia)). destruct (Nat.eq_dec (length rows - 1) 0) as [K|K]; [rewrite K in *; lra|]. pose proof (Q 0%nat (length rows - 1)%nat ltac:(lia) ltac:(lia)). pose proof (P 0%nat L). lra. }
  assert (u = 0%nat). { destruct u; auto. pose proof (Lo 0%nat ltac:(lia)). lra. } subst u. unfold livetimefrac. rewrite E. auto.
Qed.
Print Assumptions C60_tolerance_refuted.
Lemma unit_along f u w : mixable f u w -> points_along (v_unit (v_add (v_scale (1 - f) u) (v_scale f w))) f u w.
Proof.
  destruct u as [[u1 u2] u3], w as [[w1 w2] w3]. unfold mixable, points_along, v_unit, v_add, v_scale, v_mag2. cbn [fst snd].
  set (x := (1 - f) * u1 + f * w1). set (y := (1 - f) * u2 + f * w2). set (z := (1 - f) * u3 + f * w3). intros M.
  assert (P : 0 < x * x + y * y + z * z).
  { pose proof (Rle_0_sqr x). pose proof (Rle_0_sqr y). pose proof (Rle_0_sqr z). unfold Rsqr in *.
    destruct M as [M|[M|M]]; [assert (0 < x * x) by now apply Rsqr_pos_lt|assert (0 < y * y) by now apply Rsqr_pos_lt|assert (0 < z * z) by now apply Rsqr_pos_lt]; lra. }
  destruct (Rltb_spec 0 (x * x + y * y + z * z)); [|lra]. cbn [fst snd]. exists (1 / sqrt (x * x + y * y + z * z)).
  assert (Q : 0 < sqrt (x * x + y * y + z * z)) by now apply sqrt_lt_R0.
  split. { apply Rmult_lt_0_compat; [lra|]. now apply Rinv_0_lt_compat. } do 3 (split; [reflexivity|]).
  set (m := x * x + y * y + z * z) in *. replace (1 / sqrt m * x * (1 / sqrt m * x) + 1 / sqrt m * y * (1 / sqrt m * y) + 1 / sqrt m * z * (1 / sqrt m * z)) with (m / (sqrt m * sqrt m)) by (unfold m at 1; field; lra).
  rewrite sqrt_def by lra. field. lra.
Qed.
(** The spacecraft axes at a time: between two start times, the direction of the linear interpolation
    of the axes there. *)
Theorem C60_axes : forall rows t i, rows_in_order rows -> (S i < length rows)%nat ->
  row_start (nth i rows row0) <= t <= row_start (nth (S i) rows row0) ->
  let f := (t - row_start (nth i rows row0)) / (row_start (nth (S i) rows row0) - row_start (nth i rows row0)) in
  (mixable f (snd (row_dir (nth i rows row0))) (snd (row_dir (nth (S i) rows row0))) ->
    exists a, axis_at (columns rows) (sc_z (columns rows)) t = Ok a /\ points_along a f (snd (row_dir (nth i rows row0))) (snd (row_dir (nth (S i) rows row0)))) /\
  (mixable f (fst (row_dir (nth i rows row0))) (fst (row_dir (nth (S i) rows row0))) ->
    exists a, axis_at (columns rows) (sc_x (columns rows)) t = Ok a /\ points_along a f (fst (row_dir (nth i rows row0))) (fst (row_dir (nth (S i) rows row0)))).
Proof.
  intros rows t i W L B f. split; intros M; (eexists; split; [first [exact (axis_ok (fun r => snd (row_dir r)) rows t i W L B)|exact (axis_ok (fun r => fst (row_dir r)) rows t i W L B)]|now apply unit_along]).
Qed.
Print Assumptions C60_axes.
(** Just before the first interval, within the tolerance of the look-up, the axes are extrapolated from the last two
    intervals instead of the first two. *)
Theorem C60_axes_refuted : exists rows t v, rows_in_order rows /\ (2 < length rows)%nat /\ row_start (nth 0 rows row0) - tol <= t <= row_start (nth 0 rows row0) /\
  snd (row_dir (nth 0 rows row0)) = (1, 0, 0) /\ snd (row_dir (nth 1 rows row0)) = (1, 0, 0) /\
  axis_at (columns rows) (sc_z (columns rows)) t = Ok v /\ snd (fst v) < - (2 / 5).
Proof.
  set (ax := fun z : vec3 => ((0, 0, 1), z) : vec3 * vec3).
  exists [mk_ft2 0 30 30 (ax (1, 0, 0)); mk_ft2 30 60 30 (ax (1, 0, 0)); mk_ft2 60 90 30 (ax (0, 1, 0))], (-1 / 100000).
  set (rows := [mk_ft2 0 30 30 (ax (1, 0, 0)); mk_ft2 30 60 30 (ax (1, 0, 0)); mk_ft2 60 90 30 (ax (0, 1, 0))]).
  assert (W : rows_in_order rows). { split; simpl; [lra|]. repeat constructor; simpl; lra. }
  destruct (C60_tolerance_refuted rows (-1 / 100000) W ltac:(discriminate)) as (E & _). { unfold tol. simpl. lra. }
  set (f := (-1 / 100000 - 30) / (60 - 30)).
  exists (v_unit (v_add (v_scale f (v_sub (0, 1, 0) (1, 0, 0))) (1, 0, 0))). split; auto. split; [simpl; lia|]. split; [unfold tol; simpl; lra|]. split; auto. split; auto. split.
  - unfold axis_at. rewrite E. cbn [obind sc_z columns map rows length index_min option_map at_opt vec_at nth_error sc_start row_start].
    destruct (Reqb_spec (60 - 30) 0); [lra|]. reflexivity.
  - unfold v_unit, v_add, v_scale, v_sub, v_add, v_scale, v_mag2. match goal with |- context [Rltb 0 ?x] => set (m := x) end.
    assert (F : -101 / 100 < f < -1) by (unfold f; lra).
    assert (M : 4 < m < 6). { unfold m. nra. }
    destruct (Rltb_spec 0 m); [|lra]. cbn [fst snd].
    assert (S : 0 < sqrt m < 5 / 2). { split; [apply sqrt_lt_R0; lra|]. replace (5 / 2) with (sqrt ((5 / 2) * (5 / 2))) by (apply sqrt_square; lra). apply sqrt_lt_1; lra. }
    assert (I : 2 / 5 < 1 / sqrt m). { replace (2 / 5) with (1 / (5 / 2)) by field. apply Rmult_lt_compat_l; [lra|]. apply Rinv_lt_contravar; [|lra]. apply Rmult_lt_0_compat; lra. }
    replace (1 / sqrt m * (f * (1 + -1 * 0) + 0)) with (f * (1 / sqrt m)) by ring. nra.
Qed.
(** The exposure towards a source is the sum over all intervals of effective area, livetime, good
    share and efficiency, for the intervals in which the source is in front, if the last good time
    interval ends before the spacecraft data. *)
Theorem C60_exposure_partial : forall eff_area efficiency inclination cuts gtis rows energies max_time before,
  in_order gtis -> gtis <> [] -> rows_in_order rows -> rows <> [] -> (forall g, In g gtis -> snd g <= max_time) ->
  row_start (nth 0 rows row0) - tol <= max_time <= row_stop (nth (length rows - 1) rows row0) ->
  compute_exposure eff_area efficiency inclination (columns rows) cuts gtis max_time energies before =
    Ok (map (fun e => Rsum (map (exposure_of eff_area efficiency inclination cuts gtis e) rows)) energies).
Proof. intros. now apply exposure_ok. Qed.
Print Assumptions C60_exposure_partial.
(** Otherwise the last interval is left out. *)
Theorem C60_exposure_late : forall eff_area efficiency inclination cuts gtis rows energies max_time before,
  in_order gtis -> gtis <> [] -> rows_in_order rows -> rows <> [] -> row_stop (nth (length rows - 1) rows row0) < max_time ->
  compute_exposure eff_area efficiency inclination (columns rows) cuts gtis max_time energies before =
    Ok (map (fun e => Rsum (map (exposure_of eff_area efficiency inclination cuts gtis e) (removelast rows))) energies).
Proof. intros. now apply exposure_short. Qed.
Print Assumptions C60_exposure_late.
Theorem C60_exposure_refuted : ~ (forall eff_area efficiency inclination cuts gtis rows energies max_time before,
  in_order gtis -> gtis <> [] -> rows_in_order rows -> rows <> [] -> (forall g, In g gtis -> snd g <= max_time) -> row_start (nth 0 rows row0) <= max_time ->
  compute_exposure eff_area efficiency inclination (columns rows) cuts gtis max_time energies before =
    Ok (map (fun e => Rsum (map (exposure_of eff_area efficiency inclination cuts gtis e) rows)) energies)).
Proof.
  intros H. set (ax := ((1, 0, 0), (0, 0, 1)) : vec3 * vec3). set (rows := [mk_ft2 0 30 30 ax; mk_ft2 30 60 30 ax] : list sc_row).
  assert (W : rows_in_order rows). { split; simpl; [lra|]. repeat constructor; simpl; lra. }
  assert (O : in_order [(0, 100)]) by (simpl; lra).
  specialize (H (fun _ _ => 1) (fun _ _ => 1) (fun _ => 0) [] [(0, 100)] rows [100] 100 [] O ltac:(discriminate) W ltac:(discriminate)).
  specialize (H ltac:(intros g [<-|[]]; simpl; lra) ltac:(simpl; lra)).
  assert (S : forall a b, 0 <= a -> a < b -> b <= 100 -> good_share [] [(0, 100)] a b = 1).
  { intros a b H0 H1 H2. unfold good_share. rewrite (is_RInt_unique (V := R_CompleteNormedModule) _ a b (1 * (b - a))). { field. lra. }
    apply const_RInt; [lra|]. intros t Ht. unfold indicator, good. cbn [forallb existsb andb]. destruct (inside_spec t (0, 100)) as [|K]; [reflexivity|]. simpl in K. lra. }
  rewrite (exposure_short _ _ _ [] [(0, 100)] O ltac:(discriminate) rows [100] 100 [] W ltac:(discriminate)) in H by (simpl; lra).
  injection H as H. unfold rows, Rsum, exposure_of in H. cbn [map removelast fold_right row_start row_stop row_live] in H.
  rewrite !S in H by lra. destruct (Rle_dec 0 90); lra.
Qed.
(** Without spacecraft data whatever was in the vector stays. *)
Theorem C60_no_data : forall eff_area efficiency inclination cuts gtis energies max_time before,
  compute_exposure eff_area efficiency inclination (columns []) cuts gtis max_time energies before = Ok before.
Proof. reflexivity. Qed.
Definition case_sc : list sc_row := [mk_ft2 0 30 20 ((1, 0, 0), (0, 0, 1)); mk_ft2 30 60 25 ((1, 0, 0), (0, 1, 0)); mk_ft2 100 130 30 ((0, 1, 0), (0, 0, 1))].
Example C60_case : rows_in_order case_sc /\ case_sc <> [] /\ in_order [(10, 50); (60, 120)] /\ (forall g, In g [(10, 50); (60, 120)] -> snd g <= 120) /\
  row_start (nth 0 case_sc row0) - tol <= 120 <= row_stop (nth (length case_sc - 1) case_sc row0) /\ mixable (1 / 2) (0, 0, 1) (0, 1, 0).
Proof.
  split. { split; simpl; [lra|]. repeat constructor; simpl; lra. } split; [discriminate|]. split; [simpl; lra|]. split; [|split; [unfold tol; simpl; lra|unfold mixable; simpl; right; right; lra]].
  intros g [<-|[<-|[]]]; simpl; lra.
Qed.

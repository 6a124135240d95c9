(** Properties C10, C11, C12, C44. *)
From Coq Require Import Reals Lra Permutation.
From Verif Require Import Base AccumModel AccumProofs PoissonModel PoissonSpec PoissonProofs.
Local Open Scope R_scope.

(** ** C11 *)
(** Exactly the impossible models are rejected; every other model gets the
    Poisson sum.  Vectors of different lengths are rejected. *)
Theorem C11_throws_or_value :
  forall data model,
    (length data <> length model -> logLikePoisson data model = Throw) /\
    (length data = length model ->
       (logLikePoisson data model = Throw <->
          exists i d m, nth_error data i = Some d /\ nth_error model i = Some m /\ impossible d m) /\
       (logLikePoisson data model <> Throw ->
          exists v, logLikePoisson data model = Ok v /\ poisson data model v)).
Proof.
  intros data model. split; intros H.
  - unfold logLikePoisson. now rewrite (proj2 (Nat.eqb_neq _ _) H).
  - destruct (ll_spec data model H) as [[B E]|[B (v & P & E)]]; rewrite E; split.
    + split; auto.
    + intros N. now destruct N.
    + split; [discriminate|]. intros B'. now destruct B.
    + intros _. exists v. auto.
Qed.
Print Assumptions C11_throws_or_value.

Theorem C11_weighted_throws_or_value :
  forall data model w,
    (length data <> length model \/ length data <> length w -> logLikePoissonW data model w = Throw) /\
    (length data = length model -> length data = length w ->
       (logLikePoissonW data model w = Throw <->
          exists i d m wt, nth_error data i = Some d /\ nth_error model i = Some m /\ nth_error w i = Some wt /\
            impossible (wt * d) m) /\
       (logLikePoissonW data model w <> Throw ->
          exists v, logLikePoissonW data model w = Ok v /\ poissonW data model w v)).
Proof.
  intros data model w. split; [intros H|intros H H'].
  - unfold logLikePoissonW. destruct (Nat.eqb_spec (length data) (length model)); simpl; auto.
    destruct (Nat.eqb_spec (length data) (length w)); simpl; auto. tauto.
  - destruct (llw_spec data model w H H') as [[B E]|[B (v & P & E)]]; rewrite E; split.
    + split; auto.
    + intros N. now destruct N.
    + split; [discriminate|]. intros B'. now destruct B.
    + intros _. exists v. auto.
Qed.
Print Assumptions C11_weighted_throws_or_value.

(** The order of the bins does not matter. *)
Theorem C11_permutation :
  forall (ps qs : list (R * R)), Permutation ps qs ->
    logLikePoisson (map fst ps) (map snd ps) = logLikePoisson (map fst qs) (map snd qs).
Proof. exact ll_perm. Qed.
Print Assumptions C11_permutation.

(** Additive over groups of bins. *)
Theorem C11_concatenation :
  forall d1 m1 d2 m2 v1 v2, logLikePoisson d1 m1 = Ok v1 -> logLikePoisson d2 m2 = Ok v2 ->
    logLikePoisson (d1 ++ d2) (m1 ++ m2) = Ok (v1 + v2).
Proof. exact ll_app. Qed.
Print Assumptions C11_concatenation.

Example C11_case : exists v, logLikePoisson [3; 0] [2; 1] = Ok v /\ v = 3 * ln 2 - 3 /\
  logLikePoisson [3; 0] [0; 1] = Throw /\ impossible 3 0.
Proof.
  assert (B : impossible 3 0). { right. unfold has_data. split; [|lra].
    pose proof eps_zero_data. assert (/ 10 ^ 9 < 1). { rewrite <- Rinv_1. apply Rinv_lt_contravar; [|]; rewrite ?Rmult_1_l;
      [apply pow_lt; lra|]. simpl; lra. } lra. }
  assert (D : Rltb eps_data 3 = true). { destruct (Rltb_spec eps_data 3); auto. destruct B as [|[B _]]; [lra|]. unfold has_data, eps_data in *; lra. }
  assert (D0 : Rltb eps_data 0 = false). { destruct (Rltb_spec eps_data 0); auto. pose proof eps_data_pos; lra. }
  unfold logLikePoisson. simpl. rewrite D, D0.
  destruct (Rltb_spec 2 0); [lra|]. destruct (Rleb_spec 2 0); [lra|]. destruct (Rltb_spec 1 0); [lra|].
  destruct (Rltb_spec 0 0); [lra|]. destruct (Rleb_spec 0 0); [|lra].
  eexists. split; [reflexivity|]. split; [lra|]. auto.
Qed.

(** ** C10 *)
(** Layers of arbitrary non-zero sizes (as FitScanCache uses it), any range of
    layers: the compressed log-likelihood is the full one, including the
    decision to throw. *)
Theorem C10_sparse_is_dense :
  forall (dss mss wss : list (list R)) a b,
    Forall2 (fun ds ms => length ds = length ms /\ ds <> []) dss mss ->
    Forall2 (fun ds ws => length ds = length ws /\ ds <> []) dss wss ->
    Forall (Forall (fun m => 0 <= m)) mss ->
    Forall2 (Forall2 (fun d w => d <= / 10 ^ 15 -> ~ has_data (w * d))) dss wss ->
    (a < b)%nat -> (b <= length dss)%nat ->
    exists r mred wred fb lb,
      extractNonZeroBinsByLayer (concat dss) (setEnergyBinStopIdxs (map (@length R) dss)) = Ok r /\
      sparsifyModel (r_bins r) (concat mss) = Ok mred /\
      sparsifyWeights (r_bins r) (concat wss) (concat mss) = Ok wred /\
      length (r_stops r) = length dss /\ setEnergyBins (r_stops r) a b = Ok (fb, lb) /\
      logLikePoisson (bin_range (r_data r) fb lb) (bin_range mred fb lb) =
        logLikePoisson (layers dss a b) (layers mss a b) /\
      logLikePoissonW (bin_range (r_data r) fb lb) (bin_range mred fb lb) (bin_range wred fb lb) =
        logLikePoissonW (layers dss a b) (layers mss a b) (layers wss a b).
Proof.
  intros dss mss wss a b F G P W H1 H2.
  assert (W' : Forall2 wbound dss wss).
  { clear - W. induction W as [|ds ws dss wss Hd W IH]; constructor; auto.
    clear - Hd. induction Hd as [|d w ds ws H _ IH]; constructor; auto.
    intros N. apply H. unfold eps_zero in N. lra. }
  destruct (reduced_agrees dss mss wss a b F G P W' H1 H2 _ eq_refl)
    as (mred & wred & fb & lb & L & E1 & E2 & E3 & E4 & E5).
  exists (red_all (mk_red [] [] []) 0 dss), mred, wred, fb, lb.
  split; [|auto 10]. unfold extractNonZeroBinsByLayer, setEnergyBinStopIdxs.
  apply (extl_all dss [0%nat] 1 0); auto.
  clear - F. induction F as [|? ? ? ? [? ?]]; constructor; auto.
Qed.
Print Assumptions C10_sparse_is_dense.

(** The same for a fixed number of pixels per layer. *)
Theorem C10_sparse_is_dense_npix :
  forall npix (dss mss wss : list (list R)),
    (0 < npix)%nat -> dss <> [] ->
    Forall2 (fun ds ms => length ds = npix /\ length ms = npix) dss mss ->
    Forall2 (fun ds ws => length ds = npix /\ length ws = npix) dss wss ->
    Forall (Forall (fun m => 0 <= m)) mss ->
    Forall2 (Forall2 (fun d w => d <= / 10 ^ 15 -> ~ has_data (w * d))) dss wss ->
    exists r mred wred,
      extractNonZeroBins (concat dss) npix = Ok r /\
      sparsifyModel (r_bins r) (concat mss) = Ok mred /\
      sparsifyWeights (r_bins r) (concat wss) (concat mss) = Ok wred /\
      length (r_stops r) = length dss /\
      logLikePoisson (r_data r) mred = logLikePoisson (concat dss) (concat mss) /\
      logLikePoissonW (r_data r) mred wred = logLikePoissonW (concat dss) (concat mss) (concat wss).
Proof.
  intros npix dss mss wss N0 ND F G P W.
  assert (S : forall xss yss : list (list R), Forall2 (fun ds ms => length ds = npix /\ length ms = npix) xss yss -> shape2 xss yss).
  { clear - N0. induction 1 as [|ds ms ? ? [A B] _ IH]; constructor; auto. split; [lia|]. intros ->. simpl in A; lia. }
  assert (W' : Forall2 wbound dss wss).
  { clear - W. induction W as [|ds ws dss wss Hd W IH]; constructor; auto.
    clear - Hd. induction Hd as [|d w ds ws H _ IH]; constructor; auto.
    intros N. apply H. unfold eps_zero in N. lra. }
  exists (red_all (mk_red [] [] []) 0 dss).
  pose proof (red_all_eq dss (mk_red [] [] []) 0) as R. simpl in R.
  exists (concat (VecSpec.map2 (fun ds ms => redm ds ms 0) dss mss)), (redws dss mss wss).
  split. { unfold extractNonZeroBins. apply (ext_all npix dss N0 0). clear - F. induction F as [|? ? ? ? [? ?]]; constructor; auto. }
  rewrite R. simpl.
  split. { unfold sparsifyModel. eapply sp_all; [apply S; eauto|]. simpl. now rewrite app_nil_r. }
  split. { unfold sparsifyWeights. eapply spw_all; [apply S; eauto|apply S; eauto| |]; simpl; now rewrite app_nil_r. }
  split. { now rewrite cumul_length, map_length. }
  split; [apply layers_equiv; auto|].
  rewrite redws_concat. apply layers_equivW; auto.
Qed.
Print Assumptions C10_sparse_is_dense_npix.

(** A negative model bin without data is an error for the full representation
    but is hidden in the lumped bin of the compressed one. *)
Theorem C10_negative_bin_masked_refuted :
  exists data model r mred v,
    length data = length model /\ extractNonZeroBins data 2 = Ok r /\ sparsifyModel (r_bins r) model = Ok mred /\
    logLikePoisson (r_data r) mred = Ok v /\ logLikePoisson data model = Throw.
Proof.
  exists [0; 0], [-1; 2].
  assert (D : Rltb eps_zero 0 = false). { destruct (Rltb_spec eps_zero 0); auto. pose proof eps_zero_pos; lra. }
  assert (D0 : Rltb eps_data 0 = false). { destruct (Rltb_spec eps_data 0); auto. pose proof eps_data_pos; lra. }
  exists (mk_red [(-2)%Z] [0] [1%nat]), [0 + -1 + 2]. eexists. split; [reflexivity|].
  split. { unfold extractNonZeroBins. simpl. rewrite D. reflexivity. }
  split. { reflexivity. }
  split. { unfold logLikePoisson. simpl. destruct (Rltb_spec (0 + -1 + 2) 0); [lra|]. rewrite D0. reflexivity. }
  unfold logLikePoisson. simpl. destruct (Rltb_spec (-1) 0); [reflexivity|lra].
Qed.
Print Assumptions C10_negative_bin_masked_refuted.

(** The lumped weights are computed once, from the initial model
    (FitScanner.cxx:1670); for another model the weighted log-likelihoods differ. *)
Theorem C10_weights_of_other_model_refuted :
  exists data model0 model1 weights r mred wred v w,
    extractNonZeroBins data 2 = Ok r /\ sparsifyModel (r_bins r) model1 = Ok mred /\
    sparsifyWeights (r_bins r) weights model0 = Ok wred /\
    logLikePoissonW (r_data r) mred wred = Ok v /\ logLikePoissonW data model1 weights = Ok w /\ v <> w.
Proof.
  exists [0; 0], [1; 1], [1; 3], [1; 2].
  assert (D : Rltb eps_zero 0 = false). { destruct (Rltb_spec eps_zero 0); auto. pose proof eps_zero_pos; lra. }
  exists (mk_red [(-2)%Z] [0] [1%nat]), [0 + 1 + 3], [(0 + 1 * 1 + 2 * 1) / (0 + 1 + 1)]. eexists _, _.
  split. { unfold extractNonZeroBins. simpl. rewrite D. reflexivity. }
  split. { reflexivity. }
  split. { unfold sparsifyWeights. simpl. destruct (Rltb_spec 0 (0 + 1 + 1)); [|lra]. reflexivity. }
  assert (D0 : forall w, Rltb eps_data (0 * w) = false).
  { intros w. destruct (Rltb_spec eps_data (0 * w)); auto. pose proof eps_data_pos; lra. }
  split. { unfold logLikePoissonW. simpl. rewrite D0. destruct (Rltb_spec (0 + 1 + 3) 0); [lra|]. reflexivity. }
  split. { unfold logLikePoissonW. simpl. rewrite !D0. destruct (Rltb_spec 1 0); [lra|]. destruct (Rltb_spec 3 0); [lra|]. reflexivity. }
  lra.
Qed.
Print Assumptions C10_weights_of_other_model_refuted.

(** A data set meeting the hypotheses: two layers, some bins empty. *)
Example C10_case :
  let dss := [[2; 0]; [0; 3]] in let mss := [[1; 2]; [3; 4]] in
  Forall2 (fun ds ms => length ds = length ms /\ ds <> []) dss mss /\
  Forall (Forall (fun m => 0 <= m)) mss /\
  Forall2 (Forall2 (fun d w => d <= / 10 ^ 15 -> ~ has_data (w * d))) dss mss /\
  layers dss 1 2 = [0; 3].
Proof.
  assert (E : / 10 ^ 15 < 1). { rewrite <- Rinv_1. apply Rinv_lt_contravar; rewrite ?Rmult_1_l; [apply pow_lt; lra|].
    simpl; lra. }
  assert (Z : forall w, ~ has_data (w * 0)). { intros w. rewrite Rmult_0_r. apply not_data_0. }
  repeat split; repeat constructor; try discriminate; try lra; auto; intros; exfalso; lra.
Qed.

(** ** C12 *)
Theorem C12_refactor_preserves_total :
  forall templates fixed scales (free : list bool) test,
    length templates = length free -> length scales = length templates ->
    Forall2 (fun (f : bool) t => f = false -> length t = length fixed) free templates ->
    exists templates' fixed' scales',
      refactorModels templates fixed scales free test = Ok (templates', fixed', scales') /\
      templates' = flagged free templates ++ match test with Some m => [m] | None => [] end /\
      scales' = flagged free scales ++ match test with Some _ => [0] | None => [] end /\
      length fixed' = length fixed /\
      forall b, total_model fixed' templates' scales' b = total_model fixed templates scales b.
Proof.
  intros ts fixed ss free test L1 L2 Z.
  destruct (refactor_ok ts fixed ss free test L1 L2 Z) as (fo & E & L & T).
  eexists _, fo, _. split; [exact E|]. auto.
Qed.
Print Assumptions C12_refactor_preserves_total.

Theorem C12_count_mismatch_throws :
  forall templates fixed scales (free : list bool) test,
    length templates <> length free -> refactorModels templates fixed scales free test = Throw.
Proof. intros ts fixed ss free test H. unfold refactorModels. now rewrite (proj2 (Nat.eqb_neq _ _) H). Qed.
Print Assumptions C12_count_mismatch_throws.

Example C12_case :
  exists fixed', refactorModels [[1; 2]; [3; 4]] [10; 20] [2; 5] [false; true] (Some [7; 7]) =
    Ok ([[3; 4]; [7; 7]], fixed', [5; 0]) /\ fixed' = [12; 24] /\
  Forall2 (fun (f : bool) t => f = false -> length t = 2%nat) [false; true] [[1; 2]; [3; 4]].
Proof.
  eexists. split; [reflexivity|]. split; [|repeat constructor].
  assert (H : forall a b c d : R, a = c -> b = d -> [a; b] = [c; d]) by (intros; subst; reflexivity).
  apply H; lra.
Qed.

(** ** C44 *)
(** Reduced mode: the selected bins hold exactly the non-zero data of the
    requested layers, in order. *)
Theorem C44_reduced_selects_layers_partial :
  forall (dss : list (list R)) a b,
    Forall (fun ds => ds <> []) dss -> (a < b)%nat -> (b <= length dss)%nat ->
    exists stops r fb lb,
      cacheStops true (map (@length R) dss) (concat dss) = Ok stops /\
      extractNonZeroBinsByLayer (concat dss) (setEnergyBinStopIdxs (map (@length R) dss)) = Ok r /\
      setEnergyBins stops a b = Ok (fb, lb) /\
      filter (fun d => Rltb (/ 10 ^ 15) d) (bin_range (r_data r) fb lb) =
        filter (fun d => Rltb (/ 10 ^ 15) d) (layers dss a b).
Proof.
  intros dss a b F H1 H2.
  pose proof (red_all_eq dss (mk_red [] [] []) 0) as RA. simpl in RA.
  assert (E : extractNonZeroBinsByLayer (concat dss) (setEnergyBinStopIdxs (map (@length R) dss)) =
              Ok (red_all (mk_red [] [] []) 0 dss)).
  { unfold extractNonZeroBinsByLayer, setEnergyBinStopIdxs. apply (extl_all dss [0%nat] 1 0); auto. }
  destruct (setEnergyBins_ok (map (fun ds => length (redd ds)) dss) a b) as (fb & lb & Es & N & Efb & Elb);
    auto; [now rewrite map_length| |].
  { apply Forall_forall. intros n Hn. apply in_map_iff in Hn. destruct Hn as (ds & <- & _).
    unfold redd. rewrite app_length. simpl. lia. }
  exists (cumul 0 (map (fun ds => length (redd ds)) dss)), (red_all (mk_red [] [] []) 0 dss), fb, lb.
  split. { unfold cacheStops. rewrite E. simpl. now rewrite RA. }
  split; auto. split; auto. rewrite RA. cbn [r_data].
  assert (Rd : bin_range (concat (map redd dss)) fb lb = layers (map redd dss) a b).
  { apply bin_range_layers; auto; rewrite map_map; auto. }
  rewrite Rd, layers_map. unfold layers. clear.
  assert (D : Rltb (/ 10 ^ 15) 0 = false). { pose proof eps_zero_pos as Q. unfold eps_zero in Q. destruct (Rltb_spec (/ 10 ^ 15) 0); auto. lra. }
  unfold redd, eps_zero. revert D. generalize (/ 10 ^ 15). intros e D.
  induction (firstn (b - a) (skipn a dss)) as [|ds l IH]; simpl; auto.
  rewrite !filter_app, IH. f_equal. simpl. rewrite D, app_nil_r.
  clear. induction ds as [|d ds IH]; simpl; auto.
  destruct (Rltb e d) eqn:E; simpl; rewrite ?E, IH; auto.
Qed.
Print Assumptions C44_reduced_selects_layers_partial.

(** Without the reduction the indices are off by one layer: asking for all
    layers leaves out the last one. *)
Theorem C44_unreduced_refuted :
  forall (dss : list (list R)), Forall (fun ds => ds <> []) dss -> (2 <= length dss)%nat ->
    exists stops fb lb,
      cacheStops false (map (@length R) dss) (concat dss) = Ok stops /\
      setEnergyBins stops 0 (length dss) = Ok (fb, lb) /\
      bin_range (concat dss) fb lb = layers dss 0 (length dss - 1) /\
      bin_range (concat dss) fb lb <> concat dss.
Proof.
  intros dss F H. unfold cacheStops.
  exists (setEnergyBinStopIdxs (map (@length R) dss)), 0%nat, (list_sum (firstn (length dss - 1) (map (@length R) dss))).
  assert (Hl : exists k, length dss = S (S k)) by (exists (length dss - 2)%nat; lia). destruct Hl as [k Hk].
  assert (NZ : list_sum (firstn (length dss - 1) (map (@length R) dss)) <> 0%nat).
  { destruct dss as [|ds [|ds' dss]]; simpl in *; try discriminate. inversion F; subst. destruct ds; [contradiction|]. simpl. lia. }
  assert (E : bin_range (concat dss) 0 (list_sum (firstn (length dss - 1) (map (@length R) dss))) = layers dss 0 (length dss - 1)).
  { apply bin_range_layers; auto; lia. }
  split; auto. split.
  - unfold setEnergyBins. cbn [obind]. rewrite Hk. cbn [obind]. unfold setEnergyBinStopIdxs.
    unfold vec_get. cbn [nth_error]. rewrite cumul_nth by (rewrite map_length; lia). cbn [obind].
    replace (S (S k) - 1)%nat with (S k) by lia. reflexivity.
  - split; auto. rewrite E. intros Q. apply (f_equal (@length R)) in Q. unfold layers in Q.
    rewrite skipn_O, Nat.sub_0_r in Q.
    rewrite <- (firstn_skipn (length dss - 1) dss) in Q at 3.
    rewrite concat_app, app_length in Q.
    assert (L : skipn (length dss - 1) dss <> []).
    { intros Z. apply (f_equal (@length _)) in Z. rewrite skipn_length in Z. simpl in Z. lia. }
    destruct (skipn (length dss - 1) dss) as [|ds l] eqn:El; [contradiction|].
    assert (ds <> []). { rewrite Forall_forall in F. apply F. rewrite <- (firstn_skipn (length dss - 1) dss), El.
      apply in_or_app. right. now left. }
    destruct ds; [contradiction|]. simpl in Q. lia.
Qed.
Print Assumptions C44_unreduced_refuted.

Example C44_case : Forall (fun ds : list R => ds <> []) [[5]; [7; 0]] /\
  setEnergyBinStopIdxs (map (@length R) [[5]; [7; 0]]) = [0; 1; 3]%nat /\
  setEnergyBins [0; 1; 3]%nat 0 1 = Ok (0, 0)%nat /\ bin_range [5; 7; 0] 0 0 = [5; 7; 0].
Proof. repeat split; repeat constructor; discriminate. Qed.

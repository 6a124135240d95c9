From Coq Require Import Reals Lra.
From Coquelicot Require Import Coquelicot.
From Verif Require Import Base AccumModel AccumProofs VecModel PoissonModel PoissonSpec PoissonProofs
  DerivSpec NewtonModel NewtonSpec NewtonProofs NewtonFit.
Local Open Scope R_scope.

Lemma sel_bs (data : list R) first last : forall b,
  In b (seq first ((if (last =? 0)%nat then length data else last) - first)) -> selected first last (length data) b.
Proof. intros b H. apply in_seq in H. unfold selected. lia. Qed.

Lemma eps_lt_1 : / 10 ^ 9 < 1.
Proof.
  rewrite <- Rinv_1. apply Rinv_lt_contravar; [|apply Rlt_pow_R1; [lra|lia]]. rewrite Rmult_1_l. apply pow_lt. lra.
Qed.

(** ** C13 *)
(** The summed model: fixed part plus scaled templates in the selected bins,
    everything else untouched. *)
Theorem C13_model_is_sum :
  forall (data fixed model : list R) templates weights first last norms,
    shaped data fixed model templates weights first last -> length norms = length templates ->
    exists m', sumModel norms templates fixed model first last = Ok m' /\ length m' = length model /\
      forall b, (b < length data)%nat ->
        (selected first last (length data) b -> nth b m' 0 = total_model fixed templates norms b) /\
        (~ selected first last (length data) b -> nth b m' 0 = nth b model 0).
Proof.
  intros data fixed model templates weights first last norms [H1 H2 H3 _ H5] Hn.
  eexists. split; [eapply (sumModel_ok data fixed model templates); eauto|].
  set (stop := if (last =? 0)%nat then length data else last) in *.
  set (bs := seq first (stop - first)).
  assert (length (firstn first model) = first) as L1 by (rewrite firstn_length; lia).
  assert (length (map (M fixed templates norms) bs) = (stop - first)%nat) as L2 by (unfold bs; now rewrite map_length, seq_length).
  split. { rewrite !app_length, L1, L2, skipn_length. lia. }
  intros b Hb. unfold selected. fold stop. split; intros Hs.
  - rewrite app_nth2 by lia. rewrite L1, app_nth1 by lia.
    assert (nth_error bs (b - first) = Some b) as E.
    { unfold bs. rewrite (nth_error_nth' _ 0%nat) by (rewrite seq_length; lia). rewrite seq_nth by lia. f_equal. lia. }
    apply (map_nth_error (M fixed templates norms)) in E. rewrite (nth_error_nth _ _ 0 E). reflexivity.
  - destruct (Nat.lt_ge_cases b first).
    + rewrite app_nth1 by lia. rewrite <- (firstn_skipn first model) at 2. rewrite app_nth1 by lia. reflexivity.
    + assert (stop <= b)%nat by lia. rewrite app_nth2 by lia. rewrite L1, app_nth2 by lia. rewrite L2.
      rewrite <- (firstn_skipn stop model) at 2. rewrite app_nth2 by (rewrite firstn_length; lia).
      rewrite firstn_length. f_equal. lia.
Qed.
Print Assumptions C13_model_is_sum.

(** Where the model is positive, the gradient and Hessian exist, the gradient is the
    gradient of minus the log-likelihood (prior included), and the Hessian is
    the derivative of the gradient. *)
Theorem C13_gradient_and_hessian :
  forall (data fixed model : list R) templates weights pr first last norms,
    shaped data fixed model templates weights first last -> length norms = length templates ->
    (forall p, pr = Some p -> length (p_central p) = length templates /\ p_dim p = length templates) ->
    (forall b, selected first last (length data) b -> 0 < total_model fixed templates norms b) ->
    exists g h, getGradientAndHessian data norms templates fixed pr weights model first last = Ok (g, h) /\
      length g = length norms /\
      (forall i j, (i < length norms)%nat -> (j < length norms)%nat ->
         partial_at (fun n => match getGradientAndHessian data n templates fixed pr weights model first last with
                              | Ok (g', _) => nth_error g' j | _ => None end) norms i (upper h i j)) /\
      ((forall b, selected first last (length data) b -> clear_bin (nth b data 0) (weight_of weights b)) ->
       forall i, (i < length norms)%nat ->
         partial_at (fun n => option_map (fun p => - fst p)
           (to_option (getLogLikelihood data n templates fixed pr weights model first last))) norms i (nth i g 0)).
Proof.
  intros data fixed model templates weights pr first last norms [H1 H2 H3 H4 H5] Hn Hp Hm.
  set (stop := if (last =? 0)%nat then length data else last) in *.
  assert (match weights with Some w => length w = length data | None => True end) as Hw.
  { destruct weights as [w|]; auto. }
  assert (match pr with Some p => length (p_central p) = length templates /\ p_dim p = length templates | None => True end) as Hpr.
  { destruct pr as [p|]; auto. }
  assert (forall b, In b (seq first (stop - first)) -> 0 < M fixed templates norms b) as HM.
  { intros b Hb. apply Hm. now apply sel_bs. }
  destruct (gradient_value data fixed model templates pr weights first last H1 H2 H3 Hw H5 Hpr norms Hn HM)
    as (g & h & E & El & Eg & Eh).
  exists g, h. split; auto. split; [congruence|]. rewrite Hn. split.
  - intros i j Hi Hj. unfold upper.
    rewrite Eh by lia.
    replace (hfun data fixed templates weights first last norms (nth (Nat.min i j) templates []) (nth (Nat.max i j) templates []) +
             phess pr (Nat.min i j) (Nat.max i j))
      with (hfun data fixed templates weights first last norms (nth i templates []) (nth j templates []) + phess pr i j).
    + eapply GH_partial; eauto.
    + destruct (Nat.le_ge_cases i j).
      * rewrite Nat.min_l, Nat.max_r by auto. reflexivity.
      * rewrite Nat.min_r, Nat.max_l by auto. f_equal.
        -- unfold hfun. apply lsum_ext. intros; ring.
        -- unfold phess. destruct pr; auto. eapply (sym_comm data fixed model); eauto.
  - intros Hc i Hi. rewrite Eg by auto. eapply LL_partial; eauto.
    intros b Hb. apply Hc. now apply sel_bs.
Qed.
Print Assumptions C13_gradient_and_hessian.

(** Two templates, a prior and weights; bins with and without data. *)
Example C13_case :
  exists (data fixed model : list R) templates weights p norms,
    shaped data fixed model templates (Some weights) 1 0 /\ length norms = length templates /\ length norms = 2%nat /\
    length (p_central p) = length templates /\ p_dim p = length templates /\
    (forall b, selected 1 0 (length data) b -> 0 < total_model fixed templates norms b) /\
    (forall b, selected 1 0 (length data) b -> clear_bin (nth b data 0) (weight_of (Some weights) b)).
Proof.
  exists [7; 3; 0; 5], [0; 1; 0; 1], [0; 0; 0; 0], [[1; 2; 3; 4]; [0; 1; 1; 2]], [0; 1; / 2; 0],
    (mk_prior [1; 1] 2 (fun i j => if (i =? j)%nat then 4 else 1)), [1; 2].
  split. { constructor; simpl; auto; try lia. intros w E. now injection E as <-. }
  repeat split; auto; unfold selected; simpl.
  - intros [|[|[|[|b]]]] H; simpl; try lra; lia.
  - pose proof eps_data_pos as He. unfold eps_data in He. pose proof eps_lt_1 as H1.
    intros [|[|[|[|b]]]] H; cbn [nth weight_of]; try lia; unfold clear_bin, has_data.
    + right; left. lra.
    + left. rewrite Rmult_0_r. lra.
    + right; right. reflexivity.
Qed.

(** With a weight so small that the weighted counts fall below 1e-9 the likelihood
    drops the logarithm of that bin but the gradient keeps it. *)
Theorem C13_small_weight_refuted :
  exists data fixed model templates weights norms g h,
    shaped data fixed model templates (Some weights) 0 0 /\ length norms = length templates /\
    (forall b, selected 0 0 (length data) b -> 0 < total_model fixed templates norms b) /\
    getGradientAndHessian data norms templates fixed None (Some weights) model 0 0 = Ok (g, h) /\
    ~ partial_at (fun n => option_map (fun p => - fst p)
        (to_option (getLogLikelihood data n templates fixed None (Some weights) model 0 0))) norms 0 (nth 0 g 0).
Proof.
  set (w := / 10 ^ 10). assert (0 < w) as Hw by (apply Rinv_0_lt_compat; apply pow_lt; lra).
  assert (w < eps_data) as Hwe.
  { unfold w, eps_data. apply Rinv_lt_contravar; [apply Rmult_lt_0_compat; apply pow_lt; lra|]. simpl. lra. }
  clearbody w.
  exists [1], [0], [0], [[1]], [w], [1]. eexists _, _.
  split. { constructor; simpl; auto. intros w' E. now injection E as <-. }
  split; auto. split.
  { intros [|b] [_ H]; simpl in *; [lra|lia]. }
  split.
  { unfold getGradientAndHessian. simpl.
    destruct (Rleb_spec 1 0); [lra|]. destruct (Rleb_spec (0 + 1 * 1) 0); [lra|]. simpl.
    unfold ip3, ip4, innerProduct3, innerProduct4. simpl. reflexivity. }
  intros HP. simpl in HP.
  assert (partial_at (fun n => option_map (fun p => - fst p)
        (to_option (getLogLikelihood [1] n [[1]] [0] None (Some [w]) [0] 0 0))) [1] 0 w) as HP2.
  { exists 1, (1 / 2), (fun v => w * v). split; auto. split; [lra|]. split.
    - intros v Hv. assert (0 < v) by (unfold Rabs in Hv; destruct (Rcase_abs (v - 1)); lra).
      unfold getLogLikelihood. simpl. unfold logLikePoissonW. simpl.
      destruct (Rltb_spec (0 + v * 1) 0); [lra|]. destruct (Rltb_spec eps_data (1 * w)); [lra|]. simpl. f_equal. ring.
    - apply is_derive_Reals. auto_derive; auto. ring. }
  pose proof (partial_at_unique _ _ _ _ _ HP HP2) as E.
  assert (0 + w * (1 - 1 / (0 + 1 * 1)) * 1 = 0) by field. lra.
Qed.
Print Assumptions C13_small_weight_refuted.

(** ** C14 *)
Definition loglike data templates fixed pr weights model first last (n : list R) : outcome R :=
  obind (getLogLikelihood data n templates fixed pr weights model first last) (fun p => Ok (fst p)).
Definition total_counts (data : list R) (first last : nat) : R :=
  fold_right Rplus 0 (bin_range data first last).

Lemma total_fold data first last d : vrange data first last = Ok d -> fold_left Rplus d 0 = total_counts data first last.
Proof.
  unfold vrange, total_counts, bin_range. destruct (_ && _)%bool; [|discriminate]. intros E. injection E as <-.
  rewrite fold_left_Rsum. unfold Rsum. destruct (last =? 0)%nat; [rewrite firstn_all|]; lra.
Qed.

(** With damping and some counts, whatever the return code and whatever the linear
    algebra does, the reported log-likelihood is that of the returned
    normalisations and is no worse than the starting one. *)
Theorem C14_damped_fit_partial :
  forall invert svd_solve data init templates fixed pr weights tol maxIter lambda model first last res,
    0 < lambda -> / 10 ^ 9 <= total_counts data first last ->
    fitNorms_newton invert svd_solve data init templates fixed pr weights tol maxIter lambda model first last = Ok res ->
    exists ll0,
      loglike data templates fixed pr weights model first last init = Ok ll0 /\
      loglike data templates fixed pr weights model first last (fr_norms res) = Ok (fr_ll res) /\
      ll0 <= fr_ll res.
Proof.
  intros invert svd_solve data init templates fixed pr weights tol maxIter lambda model first last res Hl Hc E.
  unfold fitNorms_newton in E. apply obind_ok in E as (d & Ed & E). rewrite (total_fold _ _ _ _ Ed) in E.
  destruct (Rltb_spec (total_counts data first last) eps_data); [unfold eps_data in *; lra|].
  exact (fit_damped invert svd_solve _ _ init tol maxIter lambda res Hl E).
Qed.
Print Assumptions C14_damped_fit_partial.

(** Without damping, a fit that reports success reports the log-likelihood of the
    returned normalisations, and it is at most 1 below the starting one. *)
Theorem C14_undamped_fit_partial :
  forall invert svd_solve data init templates fixed pr weights tol maxIter model first last res,
    fr_code res = 0%Z ->
    fitNorms_newton invert svd_solve data init templates fixed pr weights tol maxIter 0 model first last = Ok res ->
    exists ll0,
      loglike data templates fixed pr weights model first last init = Ok ll0 /\
      loglike data templates fixed pr weights model first last (fr_norms res) = Ok (fr_ll res) /\
      (/ 10 ^ 9 <= total_counts data first last -> ll0 - 1 <= fr_ll res).
Proof.
  intros invert svd_solve data init templates fixed pr weights tol maxIter model first last res Hc E.
  unfold fitNorms_newton in E. apply obind_ok in E as (d & Ed & E). rewrite (total_fold _ _ _ _ Ed) in E.
  destruct (fit_undamped invert svd_solve _ _ init tol maxIter res _ Hc E) as (ll0 & H1 & H2 & H3).
  exists ll0. split; auto. split; auto. intros Hd. apply H3.
  destruct (Rltb_spec (total_counts data first last) eps_data); auto. unfold eps_data in *. lra.
Qed.
Print Assumptions C14_undamped_fit_partial.

Lemma LL1 n : 0 < n -> getLogLikelihood [1] [n] [[1]] [0] None None [0] 0 0 = Ok (0 + 1 * ln (0 + n * 1) - (0 + (0 + n * 1)), [0 + n * 1]).
Proof.
  intros H. unfold getLogLikelihood. simpl. unfold logLikePoisson. simpl.
  destruct (Rltb_spec (0 + n * 1) 0); [lra|].
  destruct (Rltb_spec eps_data 1) as [_|Hn]; [|exfalso; apply Hn; unfold eps_data].
  - destruct (Rleb_spec (0 + n * 1) 0); [lra|]. reflexivity.
  - rewrite <- Rinv_1. apply Rinv_lt_contravar; [|apply Rlt_pow_R1; [lra|lia]]. rewrite Rmult_1_l. apply pow_lt. lra.
Qed.
Lemma GH1 n : 0 < n -> getGradientAndHessian [1] [n] [[1]] [0] None None [0] 0 0 = Ok ([1 - 1 / n], [[1 / (n * n)]]).
Proof.
  intros H. unfold getGradientAndHessian. simpl.
  destruct (Rleb_spec 1 0); [lra|]. destruct (Rleb_spec (0 + n * 1) 0); [lra|]. simpl.
  unfold ip2, ip3, innerProduct2, innerProduct3. simpl.
  replace (0 + (1 - 1 / (0 + n * 1)) * 1) with (1 - 1 / n) by (field; lra).
  replace (0 + 1 / ((0 + n * 1) * (0 + n * 1)) * 1 * 1) with (1 / (n * n)) by (field; lra). reflexivity.
Qed.

(** Inverse of a 1x1 matrix. *)
Definition invert1 (h : list (list R)) : Z * (nat -> nat -> R) := (0%Z, fun _ _ => / nth 0 (nth 0 h []) 0).
Definition nosvd (h : list (list R)) (g : list R) : Z * list R := (1%Z, []).

Lemma one_bin_fit lambda : lambda <= 0 ->
  fitNorms_newton invert1 nosvd [1] [19 / 10] [[1]] [0] None None (9 / 10) 5 lambda [0] 0 0 =
  Ok (mk_res 0 [19 / 100] (if Reqb lambda 0 then ln (19 / 100) - 19 / 100 else ln (19 / 10) - 19 / 10)).
Proof.
  intros Hl. unfold fitNorms_newton. cbn [vrange length Nat.leb Nat.eqb andb firstn skipn obind fold_left].
  unfold fit_newton. rewrite LL1 by lra. cbn [obind fst length Nat.eqb].
  destruct (Rltb_spec (0 + 1) eps_data) as [Hb|_].
  { exfalso. revert Hb. unfold eps_data. assert (/ 10 ^ 9 < 1); [|lra].
    rewrite <- Rinv_1. apply Rinv_lt_contravar; [|apply Rlt_pow_R1; [lra|lia]]. rewrite Rmult_1_l. apply pow_lt. lra. }
  cbn [obind fit_loop f_edm f_norms f_lambda f_ll f_dll f_stepOk].
  assert (Rltb (9 / 10) (Rabs (100 * (9 / 10))) = true) as E1.
  { rewrite Rabs_right by lra. destruct (Rltb_spec (9 / 10) (100 * (9 / 10))); auto. lra. }
  rewrite E1. cbn [negb]. rewrite GH1 by lra. cbn [obind].
  assert (Rltb 0 lambda = false) as E2 by (destruct (Rltb_spec 0 lambda); auto; lra).
  rewrite !E2. unfold delta_newton, invert1. cbn [Z.eqb negb mat_vec length seq map big nth clamp_gt].
  assert (0 + / (1 / (19 / 10 * (19 / 10))) * (1 - 1 / (19 / 10)) = 171 / 100) as E3 by field.
  rewrite !E3. assert (Rltb (19 / 10) (171 / 100) = false) as E4 by (destruct (Rltb_spec (19/10) (171/100)); auto; lra).
  rewrite E4. cbn [absdot Z.eqb negb vsub obind f_norms existsb f_lambda f_edm f_dll f_stepOk f_ll].
  assert (Rltb (10 ^ 9) (19 / 10 - 171 / 100) = false) as E5 by (destruct (Rltb_spec (10^9) (19/10 - 171/100)) as [HH|]; auto; exfalso; simpl in HH; lra).
  rewrite E5. cbn [orb].
  assert (Rleb lambda 0 = true) as E6 by (destruct (Rleb_spec lambda 0); auto; lra). rewrite E6.
  assert (Rltb (Rabs (Rabs (171 / 100 * (1 - 1 / (19 / 10))) + 0)) (9 / 10) = true) as E7.
  { rewrite (Rabs_right (171 / 100 * (1 - 1 / (19 / 10)))) by lra. rewrite Rabs_right by lra.
    destruct (Rltb_spec (171 / 100 * (1 - 1 / (19 / 10)) + 0) (9/10)); auto; lra. }
  rewrite E7. cbn [andb orb obind f_lambda f_norms].
  replace (19 / 10 - 171 / 100) with (19 / 100) by lra.
  rewrite LL1, GH1 by lra. cbn [obind fst f_ll].
  replace (0 + 1 * ln (0 + 19 / 100 * 1) - (0 + (0 + 19 / 100 * 1))) with (ln (19/100) - 19/100) by (replace (0 + 19 / 100 * 1) with (19/100) by lra; lra).
  replace (0 + 1 * ln (0 + 19 / 10 * 1) - (0 + (0 + 19 / 10 * 1))) with (ln (19/10) - 19/10) by (replace (0 + 19 / 10 * 1) with (19/10) by lra; lra).
  assert (ln (19 / 10) - ln (19 / 100) = ln 10) as EL.
  { replace (19 / 10) with (19 / 100 * 10) by lra. rewrite ln_mult by lra. lra. }
  assert (ln 10 <= 27 / 10) as Hln.
  { rewrite <- (ln_exp (27/10)). apply ln_le; [lra|].
    assert (exp (27/10) = exp (27/40) ^ 4) as ->.
    { replace (27/10) with (27/40 + 27/40 + 27/40 + 27/40) by lra. rewrite !exp_plus. simpl. ring. }
    assert (19/10 < exp (27/40)) as Hy.
    { assert (exp (27/40) = exp (27/80) * exp (27/80)) as -> by (rewrite <- exp_plus; f_equal; lra).
      assert (exp (27/80) = exp (27/160) * exp (27/160)) as -> by (rewrite <- exp_plus; f_equal; lra).
      assert (exp (27/160) = exp (27/320) * exp (27/320)) as -> by (rewrite <- exp_plus; f_equal; lra).
      pose proof (exp_ineq1 (27/320) ltac:(lra)) as Hz. set (z := exp (27/320)) in *. clearbody z.
      assert (11758/10000 < z * z) by nra. assert (13825/10000 < z * z * (z * z)) by nra. nra. }
    set (e := exp (27/40)) in *. clearbody e.
    assert (36/10 < e * e) by nra. simpl. nra. }
  destruct (Reqb lambda 0); cbn [obind].
  - destruct (Rltb_spec (ln (19 / 100) - 19 / 100 - (ln (19 / 10) - 19 / 10)) (-1)); [lra|reflexivity].
  - destruct (Rltb_spec (ln (19 / 10) - 19 / 10 - (ln (19 / 10) - 19 / 10)) (-1)); [lra|reflexivity].
Qed.

Lemma ln_lo : ln (19 / 100) - 19 / 100 < ln (19 / 10) - 19 / 10.
Proof.
  assert (ln (19 / 10) - ln (19 / 100) = ln 10) as EL.
  { replace (19 / 10) with (19 / 100 * 10) by lra. rewrite ln_mult by lra. lra. }
  assert (2 < ln 10); [|lra].
  rewrite <- (ln_exp 2). apply ln_increasing; [apply exp_pos|].
  replace 2 with (1 + 1) by lra. rewrite exp_plus. pose proof exp_le_3. pose proof (exp_pos 1). nra.
Qed.

(** One bin, one template, exact 1x1 inverse, no damping: success is reported with a
    log-likelihood below the starting one. *)
Theorem C14_undamped_worse_refuted :
  exists data init templates fixed tol maxIter model res ll0,
    / 10 ^ 9 <= total_counts data 0 0 /\
    fitNorms_newton invert1 nosvd data init templates fixed None None tol maxIter 0 model 0 0 = Ok res /\
    fr_code res = 0%Z /\ loglike data templates fixed None None model 0 0 init = Ok ll0 /\ fr_ll res < ll0.
Proof.
  eexists [1], [19 / 10], [[1]], [0], (9 / 10), 5%nat, [0], _, _.
  split.
  { unfold total_counts, bin_range. simpl fold_right. assert (/ 10 ^ 9 < 1); [|lra].
    rewrite <- Rinv_1. apply Rinv_lt_contravar; [|apply Rlt_pow_R1; [lra|lia]]. rewrite Rmult_1_l. apply pow_lt. lra. }
  split; [apply one_bin_fit; lra|]. cbn [fr_code fr_ll]. split; auto. unfold loglike. rewrite LL1 by lra.
  split; [reflexivity|]. destruct (Reqb_spec 0 0); [|congruence].
  simpl fst. replace (0 + 19 / 10 * 1) with (19 / 10) by lra. pose proof ln_lo. lra.
Qed.
Print Assumptions C14_undamped_worse_refuted.

(** A negative damping parameter: the reported log-likelihood is still the one of the
    starting point. *)
Theorem C14_negative_lambda_refuted :
  exists data init templates fixed tol maxIter model res ll,
    fitNorms_newton invert1 nosvd data init templates fixed None None tol maxIter (-1) model 0 0 = Ok res /\
    fr_code res = 0%Z /\ loglike data templates fixed None None model 0 0 (fr_norms res) = Ok ll /\ ll < fr_ll res.
Proof.
  eexists [1], [19 / 10], [[1]], [0], (9 / 10), 5%nat, [0], _, _.
  split; [apply one_bin_fit; lra|]. cbn [fr_code fr_ll fr_norms]. split; auto. unfold loglike. rewrite LL1 by lra.
  split; [reflexivity|]. destruct (Reqb_spec (-1) 0); [lra|].
  simpl fst. replace (0 + 19 / 100 * 1) with (19 / 100) by lra. pose proof ln_lo. lra.
Qed.
Print Assumptions C14_negative_lambda_refuted.

(** No counts, with damping: the last normalisation is set to zero, the reported
    log-likelihood is the one before. *)
Theorem C14_no_counts_refuted :
  forall invert svd_solve, exists data init templates fixed model res ll,
    fitNorms_newton invert svd_solve data init templates fixed None None (1 / 1000) 10 1 model 0 0 = Ok res /\
    fr_code res = 0%Z /\ loglike data templates fixed None None model 0 0 (fr_norms res) = Ok ll /\ ll <> fr_ll res.
Proof.
  intros invert svd_solve. eexists [0], [2], [[1]], [1], [0], (mk_res 0 [0] _), _. split.
  { assert (0 < eps_data) as He by apply eps_data_pos.
    assert (forall n, 0 <= n -> getLogLikelihood [0] [n] [[1]] [1] None None [0] 0 0 = Ok (0 - (0 + (1 + n * 1)), [1 + n * 1])) as HL.
    { intros n Hn. unfold getLogLikelihood. simpl. unfold logLikePoisson. simpl.
      destruct (Rltb_spec (1 + n * 1) 0); [lra|].
      destruct (Rltb_spec eps_data 0); [lra|]. reflexivity. }
    unfold fitNorms_newton. cbn [vrange length Nat.leb Nat.eqb andb firstn skipn obind fold_left].
    unfold fit_newton. rewrite (HL 2) by lra. cbn [obind fst length Nat.eqb Nat.sub upd].
    destruct (Rltb_spec (0 + 0) eps_data); [|lra].
    assert (exists gh, getGradientAndHessian [0] [0] [[1]] [1] None None [0] 0 0 = Ok gh) as [gh EG].
    { unfold getGradientAndHessian. simpl. destruct (Rleb_spec 0 0); [|lra]. simpl.
      unfold ip2, ip3, innerProduct2, innerProduct3. simpl. eauto. }
    rewrite EG. cbn [obind fit_loop f_edm].
    assert (Rltb (1 / 1000) (Rabs 0) = false) as -> by (rewrite Rabs_R0; destruct (Rltb_spec (1/1000) 0); auto; lra).
    cbn [negb obind f_lambda f_norms f_ll]. destruct (Reqb_spec 1 0); [lra|]. rewrite EG. cbn [obind].
    assert (1 < 10 ^ 99) by (apply Rlt_pow_R1; [lra|lia]).
    assert (0 < 10 ^ 98) by (apply pow_lt; lra).
    destruct (Rltb_spec (0 - (0 + (1 + 2 * 1)) - - 10 ^ 99) (-1)).
    - exfalso. assert (10 < 10 ^ 99); [|lra]. change (10 ^ 99) with (10 * 10 ^ 98).
      assert (1 < 10 ^ 98) by (apply Rlt_pow_R1; [lra|lia]). lra.
    - reflexivity. }
  cbn [fr_code fr_norms fr_ll]. split; auto. split.
  - unfold loglike, getLogLikelihood. simpl. unfold logLikePoisson. simpl.
    destruct (Rltb_spec (1 + 0 * 1) 0); [lra|]. pose proof eps_data_pos.
    destruct (Rltb_spec eps_data 0); [lra|]. reflexivity.
  - simpl. lra.
Qed.
Print Assumptions C14_no_counts_refuted.

(** A damped fit that satisfies the hypotheses and returns. *)
Example C14_case :
  exists invert svd_solve data init templates fixed tol maxIter lambda model res,
    0 < lambda /\ / 10 ^ 9 <= total_counts data 0 0 /\
    fitNorms_newton invert svd_solve data init templates fixed None None tol maxIter lambda model 0 0 = Ok res /\
    fr_code res = 7%Z.
Proof.
  exists invert1, (fun _ _ => (7%Z, [0])), [1], [2], [[1]], [0]. eexists (1/10), 3%nat, 1, [0], _.
  split; [lra|].
  assert (/ 10 ^ 9 < 1) as H9.
  { rewrite <- Rinv_1. apply Rinv_lt_contravar; [|apply Rlt_pow_R1; [lra|lia]]. rewrite Rmult_1_l. apply pow_lt. lra. }
  split. { unfold total_counts, bin_range. simpl fold_right. lra. }
  unfold fitNorms_newton. cbn [vrange length Nat.leb Nat.eqb andb firstn skipn obind fold_left].
  unfold fit_newton. rewrite LL1 by lra. cbn [obind fst length Nat.eqb].
  destruct (Rltb_spec (0 + 1) eps_data) as [Hb|_]; [unfold eps_data in *; lra|].
  cbn [obind fit_loop f_edm f_norms f_lambda f_ll f_dll f_stepOk].
  assert (Rltb (1 / 10) (Rabs (100 * (1 / 10))) = true) as ->.
  { rewrite Rabs_right by lra. destruct (Rltb_spec (1 / 10) (100 * (1 / 10))); auto. lra. }
  cbn [negb]. rewrite GH1 by lra. cbn [obind].
  destruct (Rltb_spec 0 1); [|lra]. unfold delta_lm. simpl. split; reflexivity.
Qed.

(** ** C45 *)
(** Whatever the linear algebra does and however the fit ends, normalisations that
    start non-negative are returned non-negative. *)
Theorem C45_norms_stay_nonnegative :
  forall invert svd_solve data init templates fixed pr weights tol maxIter lambda model first last res,
    Forall (Rle 0) init ->
    fitNorms_newton invert svd_solve data init templates fixed pr weights tol maxIter lambda model first last = Ok res ->
    Forall (Rle 0) (fr_norms res).
Proof.
  intros invert svd_solve data init templates fixed pr weights tol maxIter lambda model first last res Hn E.
  unfold fitNorms_newton in E. apply obind_ok in E as (d & Ed & E). exact (fit_nonneg _ _ _ _ _ _ _ _ _ _ Hn E).
Qed.
Print Assumptions C45_norms_stay_nonnegative.

Example C45_case :
  exists res, fitNorms_newton invert1 nosvd [1] [19 / 10] [[1]] [0] None None (9 / 10) 5 0 [0] 0 0 = Ok res /\
    Forall (Rle 0) [19 / 10] /\ fr_norms res = [19 / 100].
Proof.
  eexists. split; [apply one_bin_fit; lra|]. split; [|reflexivity]. constructor; [lra|constructor].
Qed.

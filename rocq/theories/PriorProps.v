(** C38: the functions used as priors. *)
From Coq Require Import Reals Lra.
From Coquelicot Require Import Coquelicot.
From Verif Require Import Base DerivSpec NewtonFit SpecFn SpecTac PriorModel PriorSpec.
Local Open Scope R_scope.

Lemma root2pi : 0 < sqrt (2 * PI).
Proof. apply sqrt_lt_R0. pose proof PI_RGT_0. lra. Qed.
Lemma term_ok s0 : 0 < s0 -> LogGaussian_log_term s0 = Some (ln (sqrt (2 * PI) * s0)).
Proof. intros H. unfold LogGaussian_log_term. apply rlog_ok. apply Rmult_lt_0_compat; auto. apply root2pi. Qed.
Lemma LogGaussian_ok lt norm mean sigma x : sigma <> 0 ->
  LogGaussian_value (Some lt) [norm; mean; sigma] x = Some (norm * (- (x - mean) * (x - mean) / 2 / sigma / sigma - lt)).
Proof. intros H. unfold LogGaussian_value. op. reflexivity. Qed.
Lemma GaussianError_ok norm mean sigma offset x : sigma <> 0 ->
  GaussianError_value [norm; mean; sigma; offset] x = Some ((- (x - mean) * (x - mean) / (2 * sigma * sigma) + offset) * norm).
Proof. intros H. unfold GaussianError_value. op. reflexivity. Qed.

(** ** Values *)
(** GaussianError is Norm times the logarithm of the normal distribution, up to its normalisation, plus Offset. *)
Theorem C38_GaussianError_value : forall norm mean sigma offset x, 0 < sigma ->
  GaussianError_value [norm; mean; sigma; offset] x = Some (norm * (ln (gauss mean sigma x) - ln (gauss mean sigma mean) + offset)).
Proof.
  intros norm mean sigma offset x H. rewrite GaussianError_ok by lra. f_equal. unfold gauss. pose proof root2pi.
  assert (0 < / (sqrt (2 * PI) * sigma)) by (apply Rinv_0_lt_compat, Rmult_lt_0_compat; auto).
  rewrite !ln_mult by (auto; apply exp_pos). rewrite !ln_exp. field. lra.
Qed.
Print Assumptions C38_GaussianError_value.
(** LogGaussian is Norm times the logarithm of the normal distribution.  Missing: after Sigma has changed from the constructor's
    argument [sigma0]; then the value is off by the change of the normalisation. *)
Theorem C38_LogGaussian_value_partial : forall sigma0 norm mean sigma x, 0 < sigma0 -> 0 < sigma ->
  LogGaussian_value (LogGaussian_log_term sigma0) [norm; mean; sigma] x = Some (norm * (ln (gauss mean sigma x) - ln (sigma0 / sigma))).
Proof.
  intros s0 norm mean sigma x H0 H. rewrite term_ok, LogGaussian_ok by lra. f_equal. unfold gauss. pose proof root2pi.
  assert (0 < / (sqrt (2 * PI) * sigma)) by (apply Rinv_0_lt_compat, Rmult_lt_0_compat; auto).
  rewrite !ln_mult by (auto; apply exp_pos). rewrite ln_exp, ln_Rinv by (apply Rmult_lt_0_compat; auto). unfold Rdiv. rewrite !ln_mult by (auto; try apply Rinv_0_lt_compat; auto). rewrite ln_Rinv by auto. field. lra.
Qed.
Print Assumptions C38_LogGaussian_value_partial.
Theorem C38_LogGaussian_value : forall norm mean sigma x, 0 < sigma ->
  LogGaussian_value (LogGaussian_log_term sigma) [norm; mean; sigma] x = Some (norm * ln (gauss mean sigma x)).
Proof. intros. rewrite C38_LogGaussian_value_partial by auto. do 2 f_equal. replace (sigma / sigma) with 1 by (field; lra). rewrite ln_1. ring. Qed.
Print Assumptions C38_LogGaussian_value.
Theorem C38_LogGaussian_value_refuted : forall sigma0 norm mean sigma x, 0 < sigma0 -> 0 < sigma -> sigma0 <> sigma -> norm <> 0 ->
  LogGaussian_value (LogGaussian_log_term sigma0) [norm; mean; sigma] x <> Some (norm * ln (gauss mean sigma x)).
Proof.
  intros s0 norm mean sigma x H0 H N Nn E. rewrite C38_LogGaussian_value_partial in E by auto. injection E as E. apply Rmult_eq_reg_l in E; auto.
  assert (L : ln (s0 / sigma) = ln 1) by (rewrite ln_1; lra). apply ln_inv in L; [|now apply Rdiv_lt_0_compat|lra].
  apply N. replace s0 with (s0 / sigma * sigma) by (field; lra). rewrite L. ring.
Qed.
Print Assumptions C38_LogGaussian_value_refuted.

(** ** Derivative with respect to the argument *)
Theorem C38_derivative : forall norm mean sigma x, sigma <> 0 ->
  (forall sigma0, 0 < sigma0 -> argument_derivative (LogGaussian_value (LogGaussian_log_term sigma0)) LogGaussian_derivative [norm; mean; sigma] x) /\
  (forall offset, argument_derivative GaussianError_value GaussianError_derivative [norm; mean; sigma; offset] x).
Proof.
  intros norm mean sigma x H. split.
  - intros s0 H0. unfold argument_derivative. rewrite term_ok by auto. do 2 eexists. split; [unfold LogGaussian_derivative; op; reflexivity|]. split.
    + intros y. rewrite LogGaussian_ok by auto. exact (eq_refl (Some ((fun y => norm * (- (y - mean) * (y - mean) / 2 / sigma / sigma - ln (sqrt (2 * PI) * s0))) y))).
    + apply is_derive_Reals. auto_derive; auto. field. auto.
  - intros offset. do 2 eexists. split; [unfold GaussianError_derivative; op; reflexivity|]. split.
    + intros y. rewrite GaussianError_ok by auto. exact (eq_refl (Some ((fun y => (- (y - mean) * (y - mean) / (2 * sigma * sigma) + offset) * norm) y))).
    + apply is_derive_Reals. auto_derive; auto. field. auto.
Qed.
Print Assumptions C38_derivative.

(** ** Derivatives with respect to the parameters *)
Lemma unit_s (s : R) (sc : list R) i : nth_error sc i = Some s -> nth_error sc i = Some 1 -> s = 1.
Proof. congruence. Qed.
(** Missing: Sigma, parameters with a scale, a zero Norm. *)
Theorem C38_GaussianError_derivatives_partial : derivatives_ok 4 GaussianError_dom GaussianError_value GaussianError_deriv.
Proof.
  start. destruct Hd as (Hx & Hi2 & H1 & HN). rewrite (unit_s _ _ _ Hs H1).
  destruct i as [|[|[|[|i]]]]; [specialize (HN eq_refl)| |lia| |lia]; apply ex_swap; eexists;
   (split; [eapply partial_intro; [reflexivity|always; apply GaussianError_ok; auto|auto_derive; [auto|reflexivity]]|unfold GaussianError_deriv; try rewrite GaussianError_ok by auto; op; f_equal; field; auto]).
Qed.
Print Assumptions C38_GaussianError_derivatives_partial.
(** Missing: Sigma, Mean except at 0, parameters with a scale, a zero Norm. *)
Theorem C38_LogGaussian_derivatives_partial : forall sigma0, 0 < sigma0 ->
  derivatives_ok 3 LogGaussian_dom (LogGaussian_value (LogGaussian_log_term sigma0)) (LogGaussian_deriv (LogGaussian_log_term sigma0)).
Proof.
  intros s0 H0. rewrite term_ok by auto. start. destruct Hd as (Hx & H1 & HN). rewrite (unit_s _ _ _ Hs H1).
  destruct i as [|[|[|i]]]; try (exfalso; lia); apply ex_swap; eexists;
   (split; [eapply partial_intro; [reflexivity|always; apply LogGaussian_ok; auto|auto_derive; [auto|reflexivity]]
           |unfold LogGaussian_deriv; try rewrite LogGaussian_ok by auto; destruct HN as [[? HN]|[? HN]]; try discriminate; try rewrite HN; op; f_equal; field; auto]).
Qed.
Print Assumptions C38_LogGaussian_derivatives_partial.
(** The derivative of LogGaussian with respect to Mean is wrong at every other argument, and that with respect to Sigma is wrong for both
    functions, except in isolated points, whatever the parameters. *)
Theorem C38_mean_refuted : forall sigma0 norm mean sigma x, 0 < sigma0 -> sigma <> 0 -> norm <> 0 -> x <> 0 ->
  exists d d', LogGaussian_deriv (LogGaussian_log_term sigma0) 1%nat [norm; mean; sigma] [1; 1; 1] x = Some d /\
  partial_at (fun q => LogGaussian_value (LogGaussian_log_term sigma0) q x) [norm; mean; sigma] 1 d' /\ d <> d'.
Proof.
  intros s0 norm mean sigma x H0 H N Nx. rewrite term_ok by auto. exists (- norm * mean / sigma / sigma), (norm * (x - mean) / sigma / sigma). split; [|split].
  - unfold LogGaussian_deriv. op. reflexivity.
  - eapply partial_intro; [reflexivity|always; apply LogGaussian_ok; auto|]. auto_derive; auto. field. auto.
  - intros E. apply (Rmult_eq_compat_r (sigma * sigma)) in E. field_simplify in E; auto.
    assert (norm * x = 0) by lra. apply Rmult_integral in H1. tauto.
Qed.
Print Assumptions C38_mean_refuted.
Theorem C38_sigma_refuted : forall norm mean sigma x, sigma <> 0 -> norm <> 0 -> x <> mean ->
  (forall offset, exists d d', GaussianError_deriv 2%nat [norm; mean; sigma; offset] [1; 1; 1; 1] x = Some d /\
     partial_at (fun q => GaussianError_value q x) [norm; mean; sigma; offset] 2 d' /\ d <> d') /\
  (forall sigma0, 0 < sigma0 -> exists d d', LogGaussian_deriv (LogGaussian_log_term sigma0) 2%nat [norm; mean; sigma] [1; 1; 1] x = Some d /\
     partial_at (fun q => LogGaussian_value (LogGaussian_log_term sigma0) q x) [norm; mean; sigma] 2 d' /\ d <> d').
Proof.
  intros norm mean sigma x H N Nx. assert (S3 : sigma * sigma * sigma <> 0) by (repeat apply Rmult_integral_contrapositive_currified; auto).
  assert (Q : (x - mean) * (x - mean) > 0). { pose proof (Rsqr_pos_lt (x - mean)) as R. unfold Rsqr in R. apply R. lra. }
  split.
  - intros offset. exists (norm * (x - mean) * (x - mean) / (6 * (sigma * sigma * sigma))), (norm * (x - mean) * (x - mean) / (sigma * sigma * sigma)). split; [|split].
    + unfold GaussianError_deriv. rewrite rdiv_ok by (apply Rmult_integral_contrapositive_currified; auto; lra). reflexivity.
    + eapply partial_intro; [reflexivity| |].
      * eapply filter_imp; [|apply (near_ne (fun v => v) sigma 0); [apply ex_derive_id|exact H]]. intros v Hv. simpl in Hv. cbn [upd]. apply GaussianError_ok. exact Hv.
      * auto_derive. repeat apply Rmult_integral_contrapositive_currified; auto; lra. field. auto.
    + intros E. apply (Rmult_eq_compat_r (6 * (sigma * sigma * sigma))) in E. field_simplify in E; auto.
      assert (norm * ((x - mean) * (x - mean)) = 0) by lra. apply Rmult_integral in H0. lra.
  - intros s0 H0. rewrite term_ok by auto. exists (norm * ((x - mean) * (x - mean) / 6 / (sigma * sigma * sigma) - 1 / sigma)), (norm * (x - mean) * (x - mean) / (sigma * sigma * sigma)). split; [|split].
    + unfold LogGaussian_deriv. op. reflexivity.
    + eapply partial_intro; [reflexivity| |].
      * eapply filter_imp; [|apply (near_ne (fun v => v) sigma 0); [apply ex_derive_id|exact H]]. intros v Hv. simpl in Hv. cbn [upd]. apply LogGaussian_ok. exact Hv.
      * auto_derive. repeat split; auto. field. auto.
    + intros E. assert (E' : norm * (5 * ((x - mean) * (x - mean)) + 6 * (sigma * sigma)) = 0).
      { apply (Rmult_eq_compat_r (6 * (sigma * sigma * sigma))) in E. field_simplify in E; auto. lra. }
      apply Rmult_integral in E'. destruct E' as [|E']; auto. pose proof (Rle_0_sqr sigma) as R. unfold Rsqr in R. lra.
Qed.
Print Assumptions C38_sigma_refuted.
(** No parameter's scale is used: wherever the derivative is right for a unit scale and not zero, it is wrong for every other scale. *)
Theorem C38_scale_refuted : forall norm mean sigma offset s x, sigma <> 0 -> s <> 1 -> norm <> 0 ->
  exists d d', GaussianError_deriv 3%nat (trues [1; 1; 1; s] [norm; mean; sigma; offset]) [1; 1; 1; s] x = Some d /\
  partial_at (fun q => GaussianError_value (trues [1; 1; 1; s] q) x) [norm; mean; sigma; offset] 3 d' /\ d <> d'.
Proof.
  intros norm mean sigma offset s x H Hs N. exists (norm * 1), (norm * s). split; [reflexivity|]. split.
  - eapply partial_intro; [reflexivity| |].
    + always. unfold trues. simpl. apply GaussianError_ok. lra.
    + auto_derive; auto. ring.
  - intros E. apply Hs. apply Rmult_eq_reg_l in E; auto.
Qed.
Print Assumptions C38_scale_refuted.
Example C38_case : (forall i, i <> 2%nat -> (i < 4)%nat -> GaussianError_dom i [1; 1; 1; 1] (trues [1; 1; 1; 1] [2; 3; 4; 5]) 7) /\
  LogGaussian_dom 0%nat [1; 1; 1] (trues [1; 1; 1] [2; 3; 4]) 7 /\ LogGaussian_dom 1%nat [1; 1; 1] (trues [1; 1; 1] [2; 3; 4]) 0.
Proof.
  unfold trues. simpl. split; [|repeat split; try lra; auto].
  - intros i H2 H4. repeat split; try lra; auto. destruct i as [|[|[|[|i]]]]; try lia; reflexivity.
Qed.

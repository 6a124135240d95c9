(** The power-law family: derivatives (proofs of C33). *)
From Coq Require Import Reals Lra.
From Coquelicot Require Import Coquelicot.
From Verif Require Import Base DerivSpec SpecFn SpecDom SpecTac SpecPowModel.
Local Open Scope R_scope.

Lemma LogParabola_ok norm alpha beta Eb x : 0 < x -> 0 < Eb ->
  LogParabola_value [norm; alpha; beta; Eb] x = Some (norm * exp (- (alpha + beta * ln (x / Eb)) * ln (x / Eb))).
Proof. intros Hx HE. unfold LogParabola_value. op. reflexivity. Qed.
Lemma LogParabola_derivs : derivatives_ok 4 LogParabola_dom LogParabola_value LogParabola_deriv.
Proof.
  start. destruct Hd as [Hx HE]. pose proof (near_pos _ HE) as NE.
  destruct i as [|[|[|[|i]]]]; [| | | |lia]; param LogParabola_ok LogParabola_deriv.
Qed.

Lemma LogNormal_ok pref mean sigma x : 0 < x -> sigma <> 0 ->
  LogNormal_value [pref; mean; sigma] x = Some (pref * ln 10 / sqrt (2 * PI) / x / sigma * exp (- ((ln x / ln 10 - mean) / sigma) * ((ln x / ln 10 - mean) / sigma) / 2)).
Proof. intros Hx HE. unfold LogNormal_value. op. reflexivity. Qed.
Lemma ln10_nz : ln 10 <> 0.
Proof. apply Rgt_not_eq. rewrite <- ln_1. apply ln_increasing; lra. Qed.
Lemma LogNormal_derivs : derivatives_ok 3 LogNormal_dom LogNormal_value LogNormal_deriv.
Proof.
  start. destruct Hd as (Hx & HE & HP). pose proof ln10_nz as L10. pose proof (near_ne (fun v => v) r1 0 ltac:(auto_derive; auto) HE) as NE.
  destruct i as [|[|[|i]]]; [specialize (HP eq_refl)| | |lia]; param LogNormal_ok LogNormal_deriv.
Qed.

Lemma SEDPeak_ok fpeak index epeak x : 0 < x -> 0 < epeak ->
  SEDPeak_value [fpeak; index; epeak] x = Some (fpeak / (epeak * epeak) * exp (index * ln (x / epeak)) * exp ((index + 2) * (1 - x / epeak))).
Proof. intros Hx HE. unfold SEDPeak_value. op. unfold Rpower. rewrite ln_exp. reflexivity. Qed.
Lemma SEDPeak_derivs : derivatives_ok 3 SEDPeak_dom SEDPeak_value SEDPeak_deriv.
Proof.
  start. destruct Hd as (Hx & HE & HP). pose proof (near_pos _ HE) as NE.
  destruct i as [|[|[|i]]]; [specialize (HP eq_refl)| | |lia]; param SEDPeak_ok SEDPeak_deriv.
Qed.

(** *** PowerLaw2 *)
Lemma exp_ln_neq a x1 x2 : 0 < x1 -> 0 < x2 -> x1 <> x2 -> a <> 0 -> exp (a * ln x2) - exp (a * ln x1) <> 0.
Proof. intros H1 H2 H3 Ha E. apply H3. apply ln_inv; auto. assert (E' : exp (a * ln x1) = exp (a * ln x2)) by lra. apply exp_inv in E'. apply Rmult_eq_reg_l in E'; auto. Qed.
Lemma PowerLaw2_ok NN gamma x1 x2 x : 0 < x -> 0 < x1 -> 0 < x2 -> x1 <> x2 -> gamma <> -1 ->
  PowerLaw2_value [NN; gamma; x1; x2] x = Some (NN * ((1 + gamma) / (exp ((1 + gamma) * ln x2) - exp ((1 + gamma) * ln x1))) * exp (ln x * gamma)).
Proof.
  intros Hx H1 H2 H12 Hg. assert (N : exp ((1 + gamma) * ln x2) - exp ((1 + gamma) * ln x1) <> 0) by (apply exp_ln_neq; auto; lra).
  unfold PowerLaw2_value. op. destruct (Req_EM_T gamma (-1)); [contradiction|]. unfold Rpower. rewrite rdiv_ok by exact N. reflexivity.
Qed.
Lemma ln_neq x1 x2 : 0 < x1 -> 0 < x2 -> x1 <> x2 -> ln x2 - ln x1 <> 0.
Proof. intros H1 H2 H E. apply H. apply ln_inv; auto. lra. Qed.
Lemma PowerLaw2_ok1 NN x1 x2 x : 0 < x -> 0 < x1 -> 0 < x2 -> x1 <> x2 -> PowerLaw2_value [NN; -1; x1; x2] x = Some (NN / x / (ln x2 - ln x1)).
Proof. intros Hx H1 H2 H12. pose proof (ln_neq _ _ H1 H2 H12) as N. unfold PowerLaw2_value. op. destruct (Req_EM_T (-1) (-1)); [|lra]. op. reflexivity. Qed.

(** (exp w - 1) / w, continued to w = 0, as a power series. *)
Definition E1 (w : R) : R := PSeries (PS_decr_1 (fun n => / INR (Factorial.fact n))) w.
Lemma exp_radius : CV_radius (fun n => / INR (Factorial.fact n)) = p_infty.
Proof.
  apply CV_radius_infinite_DAlembert.
  - intros n. apply Rinv_neq_0_compat. apply INR_fact_neq_0.
  - apply is_lim_seq_ext with (fun n => / INR (S n)).
    + intros n. rewrite Rabs_pos_eq.
      * rewrite fact_simpl, mult_INR. field. split; [apply INR_fact_neq_0|apply not_0_INR; lia].
      * apply Rlt_le. apply Rdiv_lt_0_compat; apply Rinv_0_lt_compat; apply INR_fact_lt_0.
    + apply (is_lim_seq_incr_1 (fun n => / INR n)). apply is_lim_seq_spec. intros eps. destruct (archimed_cor1 eps (cond_pos eps)) as (N & HN & PN). exists N. intros n Hn.
      rewrite Rminus_0_r. rewrite Rabs_pos_eq.
      * apply Rle_lt_trans with (/ INR N); auto. apply Rinv_le_contravar. now apply lt_0_INR. now apply le_INR.
      * apply Rlt_le. apply Rinv_0_lt_compat. apply lt_0_INR. lia.
Qed.
Lemma E1_exp w : exp w = 1 + w * E1 w.
Proof. rewrite exp_Reals. rewrite PSeries_decr_1. simpl. rewrite Rinv_1. reflexivity. exists (exp w). apply is_exp_Reals. Qed.
Lemma E1_0 : E1 0 = 1.
Proof. unfold E1. rewrite PSeries_0. unfold PS_decr_1. simpl. now rewrite Rinv_1. Qed.
Lemma E1_nz w : E1 w <> 0.
Proof.
  destruct (Req_dec w 0) as [->|N]. rewrite E1_0. lra. intros E. pose proof (E1_exp w) as H. rewrite E in H. apply N. apply exp_inv. rewrite exp_0. lra.
Qed.
Lemma E1_derive : is_derive E1 0 (1 / 2).
Proof.
  replace (1 / 2) with (PSeries (PS_derive (PS_decr_1 (fun n => / INR (Factorial.fact n)))) 0).
  - apply is_derive_PSeries. rewrite CV_radius_decr_1, exp_radius. exact I.
  - rewrite PSeries_0. unfold PS_derive, PS_decr_1. simpl. field.
Qed.
Lemma PowerLaw2_all NN gamma x1 x2 x : 0 < x -> 0 < x1 -> 0 < x2 -> x1 <> x2 ->
  PowerLaw2_value [NN; gamma; x1; x2] x = Some (NN / x / ((ln x2 - ln x1) * E1 ((1 + gamma) * (ln x2 - ln x1))) * exp ((ln x - ln x1) * (1 + gamma))).
Proof.
  intros Hx H1 H2 H12. pose proof (ln_neq _ _ H1 H2 H12) as N. destruct (Req_dec gamma (-1)) as [->|Hg].
  - rewrite PowerLaw2_ok1 by auto. f_equal. replace (1 + -1) with 0 by ring. rewrite Rmult_0_l, Rmult_0_r, E1_0, exp_0. field. split; auto; lra.
  - rewrite PowerLaw2_ok by auto. f_equal. pose proof (exp_ln_neq (1 + gamma) x1 x2 H1 H2 H12 ltac:(lra)) as D. pose proof (E1_nz ((1 + gamma) * (ln x2 - ln x1))) as Z.
    replace (exp ((1 + gamma) * ln x2)) with (exp ((1 + gamma) * (ln x2 - ln x1)) * exp ((1 + gamma) * ln x1)) by (rewrite <- exp_plus; f_equal; ring).
    rewrite E1_exp. replace ((ln x - ln x1) * (1 + gamma)) with (ln x * gamma + (ln x + - ((1 + gamma) * ln x1))) by ring. rewrite !exp_plus, exp_ln by auto. rewrite exp_Ropp.
    pose proof (exp_pos ((1 + gamma) * ln x1)). field. repeat split; auto; try lra.
    + intros E. assert (E' : (1 + gamma) * (ln x2 - ln x1) * E1 ((1 + gamma) * (ln x2 - ln x1)) * exp ((1 + gamma) * ln x1) <> 0) by (repeat apply Rmult_integral_contrapositive_currified; auto; lra). lra.
Qed.
Lemma PowerLaw2_derivs : derivatives_ok 4 PowerLaw2_dom PowerLaw2_value PowerLaw2_deriv.
Proof.
  start. destruct Hd as (Hx & H1 & H2 & H12 & Hi2). pose proof (ln_neq _ _ H1 H2 H12) as N.
  destruct (Req_dec r0 (-1)) as [->|Hg]; (destruct i as [|[|i]]; [| |lia]); unfold PowerLaw2_deriv; rewrite Hs; op.
  - destruct (Req_EM_T (-1) (-1)); [|lra]. op. eexists. split; [reflexivity|].
    eapply partial_intro; [reflexivity| |]. always. apply PowerLaw2_ok1; auto. auto_derive; auto.
  - destruct (Req_EM_T (-1) (-1)); [|lra]. op. eexists. split; [reflexivity|].
    eapply partial_intro; [reflexivity| |]. always. apply PowerLaw2_all; auto. pose proof E1_derive as DE. auto_derive.
    + replace ((1 + -1) * (ln r2 - ln r1)) with 0 by ring. split; [exists (1/2); exact DE|]. split; [|exact I]. rewrite E1_0. nz.
    + replace ((1 + -1) * (ln r2 - ln r1)) with 0 by ring. replace ((ln x - ln r1) * (1 + -1)) with 0 by ring. change (fun x0 : R => E1 x0) with E1. rewrite E1_0, exp_0, (is_derive_unique _ _ _ DE).
      field. split; auto; lra.
  - assert (D := exp_ln_neq (1 + r0) _ _ H1 H2 H12 ltac:(lra)). destruct (Req_EM_T r0 (-1)); [contradiction|]. unfold Rpower. rewrite rdiv_ok by exact D. eexists. split; [reflexivity|].
    eapply partial_intro; [reflexivity| |]. always. apply PowerLaw2_ok; auto. auto_derive; auto. field. exact D.
  - assert (D := exp_ln_neq (1 + r0) _ _ H1 H2 H12 ltac:(lra)). destruct (Req_EM_T r0 (-1)); [contradiction|]. unfold Rpower. rewrite rdiv_ok by nz. eexists. split; [reflexivity|].
    pose proof (near_ne (fun v => v) r0 (-1) ltac:(auto_derive; auto) Hg) as Ng.
    eapply partial_intro; [reflexivity| |]. near Ng. apply PowerLaw2_ok; auto. auto_derive. exact D. fold (Rminus (exp ((1 + r0) * ln r2)) (exp ((1 + r0) * ln r1))).
    field. exact D.
Qed.

(** *** Wrapping functions *)
Lemma firstn_upd {A} n : forall (l : list A) i v, (i < n)%nat -> firstn n (upd l i v) = upd (firstn n l) i v.
Proof. induction n as [|n IH]; intros l i v H; [lia|]. destruct l as [|a l], i as [|i]; simpl; auto. f_equal. apply IH. lia. Qed.
Lemma firstn_upd_ge {A} n : forall (l : list A) i v, (n <= i)%nat -> firstn n (upd l i v) = firstn n l.
Proof. induction n as [|n IH]; intros l i v H; [reflexivity|]. destruct l as [|a l], i as [|i]; simpl; auto; try lia. f_equal. apply IH. lia. Qed.
Lemma firstn_trues n : forall sc p, firstn n (trues sc p) = trues (firstn n sc) (firstn n p).
Proof. unfold trues. induction n as [|n IH]; intros [|s sc] [|v p]; simpl; auto; try (now destruct (firstn n sc)). f_equal. apply IH. Qed.
Lemma partial_wrap (F G : list R -> option R) n p i d c : (i < n)%nat -> partial_at F (firstn n p) i d ->
  (forall v w, F (upd (firstn n p) i v) = Some w -> G (upd p i v) = Some (c * w)) -> partial_at G p i (c * d).
Proof.
  intros Hi (v0 & delta & f & Hv & Hd & Hf & Df) HG. exists v0, delta, (fun v => c * f v). split; [|split; [exact Hd|split]].
  - revert Hv Hi. clear. revert n i. induction p as [|a p IH]; intros [|n] [|i]; simpl; try discriminate; try lia; auto. intros H L. apply (IH n); auto. lia.
  - intros v H. apply HG. auto.
  - apply (derivable_pt_lim_scal f c). exact Df.
Qed.
Lemma ScaleFactor_derivs uc n dom V D : derivatives_ok n dom V D -> derivatives_ok (S n) (ScaleFactor_dom n dom V) (ScaleFactor_value uc n V) (ScaleFactor_deriv uc n V D).
Proof.
  intros H sc p x i Ls Lp Hi Hd. unfold ScaleFactor_dom in Hd. destruct (Nat.ltb_spec i n) as [L|L].
  - rewrite firstn_trues in Hd. destruct (H (firstn n sc) (firstn n p) x i) as (d & A & B); auto; try (rewrite firstn_length; lia).
    destruct (nth_error (trues sc p) n) as [sf|] eqn:Esf; [|apply nth_error_None in Esf; rewrite trues_length in Esf; lia].
    exists (prefactor uc sf * d). split.
    + unfold ScaleFactor_deriv. rewrite Esf. destruct (Nat.eqb_spec i n); [lia|]. rewrite firstn_trues, A. reflexivity.
    + apply (partial_wrap (fun q => V (trues (firstn n sc) q) x) _ n); auto. intros v w Hw. unfold ScaleFactor_value.
      destruct (nth_error sc i) as [s|] eqn:Es; [|apply nth_error_None in Es; lia]. rewrite (trues_upd sc p i v s) by (auto; lia).
      rewrite nth_error_upd_neq by lia. rewrite Esf. rewrite <- (trues_upd sc p i v s) by (auto; lia). rewrite firstn_trues, firstn_upd by lia. rewrite Hw. reflexivity.
  - assert (i = n) by lia. subst i. destruct Hd as [w Hw]. destruct (nth_error sc n) as [s|] eqn:Es; [|apply nth_error_None in Es; lia].
    exists ((if uc then - w else w) * s). split.
    + unfold ScaleFactor_deriv. destruct (nth_error (trues sc p) n) as [sf|] eqn:Esf; [|apply nth_error_None in Esf; rewrite trues_length in Esf; lia]. rewrite Nat.eqb_refl, Es, Hw. reflexivity.
    + apply (partial_scale (fun q => ScaleFactor_value uc n V q x)); auto; try lia.
      destruct (nth_error (trues sc p) n) as [sf|] eqn:Esf; [|apply nth_error_None in Esf; rewrite trues_length in Esf; lia].
      eapply (partial_intro _ _ _ sf _ (fun v => prefactor uc v * w)); auto.
      * apply filter_forall. intros v. unfold ScaleFactor_value. rewrite nth_error_upd_eq by (rewrite trues_length; lia). rewrite firstn_upd_ge by lia. rewrite Hw. reflexivity.
      * unfold prefactor. destruct uc; auto_derive; auto; ring.
Qed.

Lemma EblAtten_derivs tau n dom V D : derivatives_ok n dom V D -> derivatives_ok (n + 3) (EblAtten_dom n dom V) (EblAtten_value tau n V) (EblAtten_deriv tau n V D).
Proof.
  intros H sc p x i Ls Lp Hi Hd. unfold EblAtten_dom in Hd.
  assert (LT : length (trues sc p) = (n + 3)%nat) by (rewrite trues_length; lia).
  destruct (nth_error (trues sc p) n) as [tn|] eqn:Etn; [|apply nth_error_None in Etn; lia].
  destruct (nth_error (trues sc p) (n + 1)) as [z|] eqn:Ez; [|apply nth_error_None in Ez; lia].
  destruct (nth_error (trues sc p) (n + 2)) as [m|] eqn:Em; [|apply nth_error_None in Em; lia].
  destruct (nth_error sc i) as [s|] eqn:Es; [|apply nth_error_None in Es; lia].
  destruct (Nat.ltb_spec i n) as [L|L].
  - rewrite firstn_trues in Hd. destruct (H (firstn n sc) (firstn n p) x i) as (d & A & B); auto; try (rewrite firstn_length; lia).
    exists (exp (- tn * tau m x z) * d). split.
    + unfold EblAtten_deriv, attenuation. rewrite Etn, Ez, Em. destruct (Nat.ltb_spec i n); [|lia]. rewrite firstn_trues, A. reflexivity.
    + apply (partial_wrap (fun q => V (trues (firstn n sc) q) x) _ n); auto. intros v w Hw. unfold EblAtten_value, attenuation.
      rewrite firstn_trues, firstn_upd by lia. rewrite Hw. rewrite (trues_upd sc p i v s) by (auto; lia).
      rewrite !nth_error_upd_neq by lia. rewrite Etn, Ez, Em. f_equal. ring.
  - destruct Hd as (-> & Es1 & w & Hw). injection Es1 as ->.
    exists (- (w * exp (- tn * tau m x z)) * tau m x z). split.
    + unfold EblAtten_deriv, EblAtten_value, attenuation. rewrite Etn, Ez, Em, Hw. destruct (Nat.ltb_spec n n); [lia|]. rewrite Nat.eqb_refl. reflexivity.
    + replace (- (w * exp (- tn * tau m x z)) * tau m x z) with (- (w * exp (- tn * tau m x z)) * tau m x z * 1) by ring.
      apply (partial_scale (fun q => EblAtten_value tau n V q x)); auto; try lia.
      eapply (partial_intro _ _ _ tn _ (fun v => w * exp (- v * tau m x z))); auto.
      * apply filter_forall. intros v. unfold EblAtten_value, attenuation. rewrite nth_error_upd_eq by lia. rewrite firstn_upd_ge by lia. rewrite !nth_error_upd_neq by lia. rewrite Hw, Ez, Em. reflexivity.
      * auto_derive; auto; ring.
Qed.

Lemma FileFunction_derivs interp xs ys : derivatives_ok 1 (FileFunction_dom interp xs ys) (FileFunction_value interp xs ys) (FileFunction_deriv interp xs ys).
Proof.
  start. destruct Hd as (Hx & Hn & Hl & Hi' & He). destruct i as [|i]; [|lia]. unfold FileFunction_deriv. rewrite Hs. op.
  destruct (interp xs ys (ln x)) as [y|] eqn:Ei; [|congruence]. exists (exp y). split; [now rewrite Rmult_comm|].
  eapply partial_intro; [reflexivity| |].
  - always. instantiate (1 := fun v => v * exp y). cbv beta.
    unfold FileFunction_value. op. destruct (nth_error xs 0) as [x0|] eqn:E0; [|destruct xs; [congruence|discriminate]].
    destruct (Req_EM_T (ln x) x0) as [Q|_]. rewrite (He 0%nat); [reflexivity|auto|congruence].
    destruct (nth_error xs (length xs - 1)) as [xn|] eqn:En; [|apply nth_error_None in En; destruct xs; [congruence|simpl in En; lia]].
    destruct (Req_EM_T (ln x) xn) as [Q|_]. rewrite <- Hl. rewrite (He (length xs - 1)%nat); [reflexivity|auto|congruence]. rewrite Ei. reflexivity.
  - auto_derive; auto. ring.
Qed.

(** C33, C34, C35: derivByParam of the spectral functions. *)
From Coq Require Import Reals Lra.
From Coquelicot Require Import Coquelicot.
From Verif Require Import Base DerivSpec SpecFn SpecDom SpecPowModel SpecExpModel SpecBrkModel SpecListModel SpecTac SpecPow SpecExp SpecBrk SpecBrk2 SpecBrk3 SpecList SpecPPL SpecRef.
Local Open Scope R_scope.

(** ** C33: the power-law family *)
(** For all parameter values, scales and energies, derivByParam is the partial derivative of value. *)
Theorem C33_PowerLaw2 : derivatives_ok 4 PowerLaw2_dom PowerLaw2_value PowerLaw2_deriv.
Proof. exact PowerLaw2_derivs. Qed.
Print Assumptions C33_PowerLaw2.
Theorem C33_LogParabola : derivatives_ok 4 LogParabola_dom LogParabola_value LogParabola_deriv.
Proof. exact LogParabola_derivs. Qed.
Print Assumptions C33_LogParabola.
(** Missing: a zero prefactor. *)
Theorem C33_LogNormal_partial : derivatives_ok 3 LogNormal_dom LogNormal_value LogNormal_deriv.
Proof. exact LogNormal_derivs. Qed.
Print Assumptions C33_LogNormal_partial.
(** Missing: a zero peak flux. *)
Theorem C33_ExpCutoffSEDPeak_partial : derivatives_ok 3 SEDPeak_dom SEDPeak_value SEDPeak_deriv.
Proof. exact SEDPeak_derivs. Qed.
Print Assumptions C33_ExpCutoffSEDPeak_partial.
(** Around any spectrum whose derivatives are right. *)
Theorem C33_ScaleFactor : forall use_complement n dom V D, derivatives_ok n dom V D ->
  derivatives_ok (S n) (ScaleFactor_dom n dom V) (ScaleFactor_value use_complement n V) (ScaleFactor_deriv use_complement n V D).
Proof. exact ScaleFactor_derivs. Qed.
Print Assumptions C33_ScaleFactor.
(** Missing: the scale of tau_norm. *)
Theorem C33_EblAtten_partial : forall tau n dom V D, derivatives_ok n dom V D ->
  derivatives_ok (n + 3) (EblAtten_dom n dom V) (EblAtten_value tau n V) (EblAtten_deriv tau n V D).
Proof. exact EblAtten_derivs. Qed.
Print Assumptions C33_EblAtten_partial.
Theorem C33_FileFunction : forall interpolate xs ys,
  derivatives_ok 1 (FileFunction_dom interpolate xs ys) (FileFunction_value interpolate xs ys) (FileFunction_deriv interpolate xs ys).
Proof. exact FileFunction_derivs. Qed.
Print Assumptions C33_FileFunction.
(** Missing: the scales of IndexL and IndexH. *)
Theorem C33_PiecewisePowerLaw_partial : forall dec indexL indexH dNdEs energies p0, PPL_addParams indexL indexH dNdEs energies = Ok p0 ->
  energies <> [] -> Forall (Rlt 0) energies -> derivatives_okv (length p0) (PPL_dom dec energies) (PPL_value dec energies) (PPL_deriv dec energies).
Proof.
  intros dec iL iH ds en p0 H N P. unfold PPL_addParams in H. destruct (Nat.eqb_spec (length ds) (length en)) as [L|]; [|discriminate]. simpl in H.
  destruct (increasing en) eqn:I; [|discriminate]. injection H as <-.
  replace (length (iL :: iH :: ds ++ en)) with (length en + 2 + length en)%nat by (simpl; rewrite app_length; lia).
  apply (PPL_derivs' dec en); auto. destruct en; [congruence|simpl; lia]. intros j Hj. rewrite Forall_forall in P. apply P. now apply nth_In.
Qed.
Print Assumptions C33_PiecewisePowerLaw_partial.

(** The parts that are missing above. *)
Theorem C33_LogNormal_refuted : derivative_missing 3 LogNormal_value LogNormal_deriv 0.
Proof.
  apply (missing_zero 3 _ _ [0; 0; 1] 1 (ln 10 / sqrt (2 * PI) * exp (- ((ln 1 / ln 10 - 0) / 1) * ((ln 1 / ln 10 - 0) / 1) / 2))); try reflexivity; try lra.
  - unfold LogNormal_deriv. cbn [nth_error repeat]. rewrite LogNormal_ok by lra. op. unfold rdiv. destruct (Req_EM_T 0 0); [reflexivity|lra].
  - intros v. cbn [upd]. rewrite LogNormal_ok by lra. apply (f_equal Some). field. apply Rgt_not_eq, sqrt_lt_R0. pose proof PI_RGT_0. lra.
Qed.
Print Assumptions C33_LogNormal_refuted.
Theorem C33_ExpCutoffSEDPeak_refuted : derivative_missing 3 SEDPeak_value SEDPeak_deriv 0.
Proof.
  eapply (missing_zero 3 _ _ [0; 0; 1] 1); try reflexivity; try lra.
  - unfold SEDPeak_deriv. cbn [nth_error repeat]. rewrite SEDPeak_ok by lra. op. unfold rdiv. destruct (Req_EM_T 0 0); [reflexivity|lra].
  - intros v. cbn [upd]. rewrite SEDPeak_ok by lra. apply (f_equal Some). unfold Rdiv. rewrite !Rmult_assoc. reflexivity.
Qed.
Print Assumptions C33_ExpCutoffSEDPeak_refuted.
(** tau_norm with scale 2, around a LogParabola. *)
Theorem C33_EblAtten_refuted : exists tau, derivative_wrong 7 (EblAtten_value tau 4 LogParabola_value) (EblAtten_deriv tau 4 LogParabola_value LogParabola_deriv) 4.
Proof. exists (fun _ _ _ => 1). exact EblAtten_wrong. Qed.
Print Assumptions C33_EblAtten_refuted.
Theorem C33_PiecewisePowerLaw_refuted : exists energies, derivative_wrongv 4 (PPL_value false energies) (PPL_deriv false energies) 0.
Proof.
  exists [2]. exists [2; 1; 1; 1], [/ 2; 0; 1; 2], 1, (exp (ln (1 / 2)) * ln (1 / 2)), (exp (ln (1 / 2)) * ln (1 / 2) * 2).
  assert (V : forall a, PPL_value false [2] [a; 0; 1; 2] 1 = Some (exp (a * ln (1 / 2)))).
  { intros a. unfold PPL_value. cbn [nth_error length Nat.sub]. rewrite ltd_f by lra. cbn [negb]. unfold PPL_norm. cbn [nth_error Nat.ltb Nat.leb Nat.add]. op. unfold Rpower. now rewrite Rmult_1_l. }
  assert (T : forall b, trues [2; 1; 1; 1] [b; 0; 1; 2] = [b * 2; 0; 1; 2]) by (intros; unfold trues; simpl; repeat (f_equal; try lra)).
  repeat split; try lra.
  - repeat constructor; lra.
  - unfold PPL_deriv. cbn [nth_error length Nat.sub Nat.leb Nat.add]. rewrite ltd_t by lra. rewrite T, V. op. apply (f_equal Some). replace (/ 2 * 2) with 1 by lra. now rewrite Rmult_1_l.
  - apply partial_intro with (v0 := / 2) (f := fun b => exp (b * 2 * ln (1 / 2))); [reflexivity| |].
    + apply filter_forall. intros b. cbn [upd]. now rewrite T, V.
    + auto_derive; auto. replace (/ 2 * 2) with 1 by lra. rewrite !Rmult_1_l. ring.
  - pose proof ln_half. pose proof (exp_pos (ln (1 / 2))). intros E.
    assert (exp (ln (1 / 2)) * ln (1 / 2) = 0) by lra. apply Rmult_integral in H1. lra.
Qed.
Print Assumptions C33_PiecewisePowerLaw_refuted.

(** The domains are not empty: also with scales other than 1, and for gamma = -1. *)
Example C33_case_PowerLaw2 : forall i, (i < 2)%nat -> PowerLaw2_dom i [2; 3; 1; 1] (trues [2; 3; 1; 1] [5; - / 3; 1; 10]) 7.
Proof. intros i H. unfold trues, PowerLaw2_dom. simpl. repeat split; lra || auto. Qed.
Example C33_case_others : (forall i, LogParabola_dom i [2; 3; 4; 5] (trues [2; 3; 4; 5] [1; -1; 0; 1]) 7) /\
  (forall i, LogNormal_dom i [2; 3; 4] (trues [2; 3; 4] [1; -1; -1]) 7) /\ (forall i, SEDPeak_dom i [2; 3; 4] (trues [2; 3; 4] [-1; 0; 1]) 7).
Proof. unfold trues, LogParabola_dom, LogNormal_dom, SEDPeak_dom. simpl. repeat split; lra. Qed.
Example C33_case_wrapped : ScaleFactor_dom 4 LogParabola_dom LogParabola_value 4 [1; 1; 1; 1; 3] (trues [1; 1; 1; 1; 3] [1; 2; 3; 4; 5]) 7.
Proof. eexists. unfold trues. simpl. unfold LogParabola_value. op. reflexivity. Qed.
Example C33_case_table : FileFunction_dom (fun xs ys x => Some (x + 1)) [0; 1] [1; 2] 0 [2] (trues [2] [3]) (exp 1).
Proof.
  unfold FileFunction_dom. rewrite ln_exp. repeat split; try discriminate; auto using exp_pos.
  intros j [->| ->]; simpl; intros H; [injection H as H; lra|f_equal; lra].
Qed.
Example C33_case_PiecewisePowerLaw : PPL_addParams (-1) (-2) [1; 2] [1; 5] = Ok [-1; -2; 1; 2; 1; 5] /\
  forall i dec, (i < 4)%nat -> PPL_dom dec [1; 5] i [1; 1; 3; 3; 1; 1] (trues [1; 1; 3; 3; 1; 1] [-1; -2; 1; 2; 1; 5]) 7.
Proof.
  split.
  - unfold PPL_addParams. simpl. now rewrite ltd_t by lra.
  - intros i dec Hi. unfold PPL_dom, trues. simpl. split; [lra|]. split; [lia|]. split; [|split; [|split; [|split]]]; try (intros; lra).
    + intros [|[|[|k]]]; simpl; intros; lra || lia.
    + intros ->. reflexivity.
Qed.

(** ** C34: the exponential cutoff family *)
(** Missing in all but BPLExpCutoff: a zero prefactor. *)
Theorem C34_PLSuperExpCutoff_partial : derivatives_ok 5 PLSuper_dom PLSuper_value PLSuper_deriv.
Proof. exact PLSuper_derivs. Qed.
Print Assumptions C34_PLSuperExpCutoff_partial.
(** Missing here and in the next two: where the exponent is cut at log(1E100). *)
Theorem C34_PLSuperExpCutoff2_partial : derivatives_ok 5 PLSuper2_dom PLSuper2_value PLSuper2_deriv.
Proof. exact PLSuper2_derivs. Qed.
Print Assumptions C34_PLSuperExpCutoff2_partial.
Theorem C34_PLSuperExpCutoff3_partial : derivatives_ok 5 PLSuper3_dom PLSuper3_value PLSuper3_deriv.
Proof. exact PLSuper3_derivs. Qed.
Print Assumptions C34_PLSuperExpCutoff3_partial.
Theorem C34_PLSuperExpCutoff4_partial : derivatives_ok 5 PLSuper4_dom PLSuper4_value PLSuper4_deriv.
Proof. exact PLSuper4_derivs. Qed.
Print Assumptions C34_PLSuperExpCutoff4_partial.
Theorem C34_ExpCutoff_partial : derivatives_ok 7 ExpCutoff_dom ExpCutoff_value ExpCutoff_deriv.
Proof. exact ExpCutoff_derivs. Qed.
Print Assumptions C34_ExpCutoff_partial.
(** Missing: a zero prefactor with scaled Eabs or P1. *)
Theorem C34_BPLExpCutoff_partial : derivatives_ok 6 BPLExp_dom BPLExp_value BPLExp_deriv.
Proof. exact BPLExp_derivs. Qed.
Print Assumptions C34_BPLExpCutoff_partial.

(** The parts that are missing above. *)
Theorem C34_zero_prefactor_refuted : derivative_missing 5 PLSuper_value PLSuper_deriv 0 /\ derivative_missing 5 PLSuper2_value PLSuper2_deriv 0 /\
  derivative_missing 5 PLSuper3_value PLSuper3_deriv 0 /\ derivative_missing 5 PLSuper4_value PLSuper4_deriv 0 /\ derivative_missing 7 ExpCutoff_value ExpCutoff_deriv 0.
Proof.
  assert (Z : forall b, rdiv b 0 = None) by (intros; unfold rdiv; destruct (Req_EM_T 0 0); [reflexivity|lra]).
  split; [|split; [|split; [|split]]].
  - eapply (missing_zero 5 _ _ [0; 0; 1; 1; 1] 1); try reflexivity; try lra.
    + unfold PLSuper_deriv. cbn [nth_error repeat]. rewrite PLSuper_ok by lra. now rewrite Z.
    + intros v. cbn [upd]. rewrite PLSuper_ok by lra. apply (f_equal Some). unfold Rdiv. rewrite !Rmult_assoc. reflexivity.
  - eapply (missing_zero 5 _ _ [0; 0; 1; 1; 1] 1); try reflexivity; try lra.
    + unfold PLSuper2_deriv. cbn [nth_error repeat]. rewrite PLSuper2_ok by lra. now rewrite Z.
    + intros v. cbn [upd]. rewrite PLSuper2_ok by lra. apply (f_equal Some). unfold Rdiv. rewrite !Rmult_assoc. reflexivity.
  - eapply (missing_zero 5 _ _ [0; 0; 1; 1; 1] 1); try reflexivity; try lra.
    + unfold PLSuper3_deriv. cbn [nth_error repeat]. rewrite PLSuper3_ok by lra. op. now rewrite Z.
    + intros v. cbn [upd]. rewrite PLSuper3_ok by lra. apply (f_equal Some). reflexivity.
  - eapply (missing_zero 5 _ _ [0; 0; 1; 1; 1] 1); try reflexivity; try lra.
    + unfold PLSuper4_deriv. cbn [nth_error repeat]. rewrite PLSuper4_small by (try lra; replace (1 / 1) with 1 by lra; rewrite ln_1; lra). op. now rewrite Z.
    + intros v. cbn [upd]. rewrite PLSuper4_small by (try lra; replace (1 / 1) with 1 by lra; rewrite ln_1; lra). reflexivity.
  - eapply (missing_zero 7 _ _ [0; 0; 1; 2; 1; 1; 1] 1); try reflexivity; try lra.
    + unfold ExpCutoff_deriv. cbn [nth_error repeat]. rewrite ExpCutoff_low by lra. now rewrite Z.
    + intros v. cbn [upd]. rewrite ExpCutoff_low by lra. reflexivity.
Qed.
Print Assumptions C34_zero_prefactor_refuted.
(** Where the exponent is cut the value does not move, but the result is not 0. *)
Theorem C34_bounded_exponent_refuted : derivative_wrong 5 PLSuper2_value PLSuper2_deriv 3 /\ derivative_wrong 5 PLSuper3_value PLSuper3_deriv 1 /\
  derivative_wrong 5 PLSuper4_value PLSuper4_deriv 1.
Proof.
  pose proof (exp_pos max_exp) as E. pose proof (exp_pos 1) as E1.
  split; [|split].
  - destruct PLSuper2_wrong as (A & B). apply (wrong_ones 5 _ _ 3 [1; 0; 1; -2 * max_exp; 1] 1 (- exp max_exp) 0); auto; lra.
  - destruct PLSuper3_wrong as (A & B). apply (wrong_ones 5 _ _ 1 [1; 2 * max_exp; 1; 0; 1] (exp 1) (exp max_exp) 0); auto; lra.
  - destruct PLSuper4_wrong as (A & B). apply (wrong_ones 5 _ _ 1 [1; 2 * max_exp; 1; 0; 1] (exp 1) (exp max_exp) 0); auto; lra.
Qed.
Print Assumptions C34_bounded_exponent_refuted.
Theorem C34_BPLExpCutoff_refuted : derivative_wrong 6 BPLExp_value BPLExp_deriv 0.
Proof. exact BPLExp_wrong'. Qed.
Print Assumptions C34_BPLExpCutoff_refuted.

Example C34_case : (forall i, PLSuper_dom i [2; 2; 2; 2; 2] (trues [2; 2; 2; 2; 2] [1; -1; 3; 4; / 2]) 7) /\
  (forall i, PLSuper2_dom i [2; 2; 2; 2; 2] (trues [2; 2; 2; 2; 2] [1; -1; 3; 4; / 2]) 7) /\
  (forall i, PLSuper3_dom i [2; 2; 2; 2; 2] (trues [2; 2; 2; 2; 2] [1; -1; 3; / 2; / 2]) 12) /\
  (forall i, ExpCutoff_dom i [2; 2; 2; 2; 2; 2; 2] (trues [2; 2; 2; 2; 2; 2; 2] [1; -1; 3; 4; / 2; 5; 6]) 7) /\
  (forall i, BPLExp_dom i [2; 2; 2; 2; 2; 2] (trues [2; 2; 2; 2; 2; 2] [1; -1; -2; 3; 4; / 2]) 7).
Proof.
  pose proof max_exp_pos as M. unfold max_exp in M.
  split; [|split; [|split; [|split]]]; intros i; unfold trues; simpl; repeat split; try lra.
  - intros _. pose proof (exp_pos (/ 2 * 2 * ln 7)). unfold Rpower. simpl in M. lra.
  - intros _. simpl in M. unfold Rpower. replace (/ 2 * 2) with 1 by lra. assert (L : ln (12 / (3 * 2)) < 1).
    { replace (12 / (3 * 2)) with 2 by lra. rewrite <- (ln_exp 1). apply ln_increasing; [lra|]. pose proof (exp_ineq1 1 ltac:(lra)). lra. }
    assert (0 < ln (12 / (3 * 2))). { replace (12 / (3 * 2)) with 2 by lra. rewrite <- ln_1. apply ln_increasing; lra. }
    rewrite !Rmult_1_l. rewrite exp_ln by lra. lra.
Qed.
Example C34_case_4 : forall i, (i < 5)%nat -> PLSuper4_dom i [2; 2; 2; 2; 2] (trues [2; 2; 2; 2; 2] [1; -1; 3; 4; 0]) 7.
Proof. intros i _. unfold trues. simpl. rewrite !Rmult_0_l, Rabs_R0. repeat split; try lra. Qed.

(** ** C35: broken power laws and the Band function *)
(** Missing: an index equal to -1, a zero Integral (the code divides by both), and Index1 (Index2) when only the part
    above (below) the break is normalised and the energy is on the other side. *)
Theorem C35_BrokenPowerLaw2_partial : derivatives_ok 6 BPL2_dom BPL2_value BPL2_deriv.
Proof. exact BPL2_derivs. Qed.
Print Assumptions C35_BrokenPowerLaw2_partial.
Theorem C35_BrokenPowerLaw3 : derivatives_ok 8 BPL3_dom BPL3_value BPL3_deriv.
Proof. exact BPL3_derivs. Qed.
Print Assumptions C35_BrokenPowerLaw3.
(** Missing: a zero prefactor. *)
Theorem C35_SmoothBrokenPowerLaw_partial : derivatives_ok 6 Smooth_dom Smooth_value Smooth_deriv.
Proof. exact Smooth_derivs. Qed.
Print Assumptions C35_SmoothBrokenPowerLaw_partial.
(** Missing: a zero prefactor and the scale of Index2. *)
Theorem C35_SmoothDoubleBrokenPowerLaw_partial : derivatives_ok 9 Smooth2_dom Smooth2_value Smooth2_deriv.
Proof. exact Smooth2_derivs. Qed.
Print Assumptions C35_SmoothDoubleBrokenPowerLaw_partial.
(** Missing: a zero norm, and Alpha when it is not above Beta. *)
Theorem C35_BandFunction_partial : derivatives_ok 5 Band_dom Band_value Band_deriv.
Proof. exact Band_derivs. Qed.
Print Assumptions C35_BandFunction_partial.
(** Missing: a zero normalization and some scales of the indices. *)
Theorem C35_MultipleBrokenPowerLaw_partial : forall normalization photonIndexes breakEnergies p0,
  MBPL_addParams normalization photonIndexes breakEnergies = Ok p0 -> breakEnergies <> [] -> Forall (Rlt 0) breakEnergies ->
  derivatives_okv (length p0) (MBPL_dom breakEnergies) (MBPL_value breakEnergies) (MBPL_deriv breakEnergies).
Proof.
  intros N ix br p0 H NE P. unfold MBPL_addParams in H. destruct (Nat.eqb_spec (length ix) (length br + 1)) as [L|]; [|discriminate]. simpl in H.
  destruct (increasing br) eqn:I; [|discriminate]. injection H as <-.
  replace (length (N :: ix ++ br)) with (length br + 2 + length br)%nat by (simpl; rewrite app_length; lia).
  assert (NE' : (0 < length br)%nat) by (destruct br; [congruence|simpl; lia]).
  assert (POS : forall j, (j < length br)%nat -> 0 < nth j br 0) by (intros j Hj; rewrite Forall_forall in P; apply P; now apply nth_In).
  intros sc p x i Ls Lp Hi (D1 & D2 & D3 & D4 & D5). apply (MBPL_derivs' br); auto. repeat split; auto. intros Hi2 Hu.
  assert (i - 1 < upper_bound br x)%nat by lia. pose proof (ub_le br x). apply D5; auto; [lia|]. apply ub_lo; auto.
Qed.
Print Assumptions C35_MultipleBrokenPowerLaw_partial.

(** The parts that are missing above. *)
Theorem C35_BrokenPowerLaw2_refuted : derivative_wrong 6 BPL2_value BPL2_deriv 1.
Proof.
  destruct BPL2_wrong as (A & B). pose proof ln_half. apply (wrong_ones 6 _ _ 1 [1; 0; 0; 2; 3; 4] 1 0 (ln (1 / 2))); auto; lra.
Qed.
Print Assumptions C35_BrokenPowerLaw2_refuted.
Theorem C35_SmoothDoubleBrokenPowerLaw_refuted : derivative_wrong 9 Smooth2_value Smooth2_deriv 3.
Proof. exact Smooth2_wrong. Qed.
Print Assumptions C35_SmoothDoubleBrokenPowerLaw_refuted.
Theorem C35_BandFunction_refuted : derivative_wrong 5 Band_value Band_deriv 1.
Proof.
  destruct Band_alpha_wrong as (A & B). apply (wrong_ones 5 _ _ 1 [1; 0; 1; 1; 1] 2 (ln 2) 0); auto; try lra.
  pose proof (ln_increasing 1 2 ltac:(lra) ltac:(lra)) as Q. rewrite ln_1 in Q. lra.
Qed.
Print Assumptions C35_BandFunction_refuted.
Theorem C35_zero_prefactor_refuted : derivative_missing 6 Smooth_value Smooth_deriv 0 /\ derivative_missing 9 Smooth2_value Smooth2_deriv 0 /\ derivative_missing 5 Band_value Band_deriv 0.
Proof.
  assert (Z : forall b, rdiv b 0 = None) by (intros; unfold rdiv; destruct (Req_EM_T 0 0); [reflexivity|lra]).
  split; [|split].
  - eapply (missing_zero 6 _ _ [0; 0; 1; 1; 1; 1] 1); try reflexivity; try lra.
    + unfold Smooth_deriv. cbn [nth_error repeat]. rewrite Smooth_ok by lra. op. now rewrite Z.
    + intros v. cbn [upd]. rewrite Smooth_ok by lra. apply (f_equal Some). rewrite !Rmult_assoc. reflexivity.
  - eapply (missing_zero 9 _ _ [0; 0; 1; 1; 1; 1; 1; 1; 1] 1); try reflexivity; try lra.
    + unfold Smooth2_deriv. cbn [nth_error repeat]. rewrite Smooth2_ok by lra. op. now rewrite Z.
    + intros v. cbn [upd]. rewrite Smooth2_ok by lra. apply (f_equal Some). rewrite !Rmult_assoc. reflexivity.
  - eapply (missing_zero 5 _ _ [0; 0; 1; 1; 1] 1); try reflexivity; try lra.
    + unfold Band_deriv. cbn [nth_error repeat]. rewrite Band_flat by lra. op. now rewrite Z.
    + intros v. cbn [upd]. rewrite Band_flat by lra. reflexivity.
Qed.
Print Assumptions C35_zero_prefactor_refuted.
Theorem C35_MultipleBrokenPowerLaw_refuted : exists breaks, derivative_wrongv 4 (MBPL_value breaks) (MBPL_deriv breaks) 1.
Proof.
  exists [2]. exists [1; 2; 1; 1], [1; / 2; 0; 2], 1, (exp (ln (1 / 2)) * ln (1 / 2)), (exp (ln (1 / 2)) * ln (1 / 2) * 2).
  assert (V : forall a, MBPL_value [2] [1; a; 0; 2] 1 = Some (exp (a * ln (1 / 2)))).
  { intros a. unfold MBPL_value. cbn [nth_error upper_bound]. rewrite ltd_t by lra. cbn [Nat.add nth_error]. unfold MBPL_norm. cbn [nth_error Nat.leb]. op. unfold Rpower. now rewrite Rmult_1_l. }
  assert (T : forall b, trues [1; 2; 1; 1] [1; b; 0; 2] = [1; b * 2; 0; 2]) by (intros; unfold trues; simpl; repeat (f_equal; try lra)).
  repeat split; try lra.
  - repeat constructor; lra.
  - unfold MBPL_deriv. cbn [nth_error length Nat.leb Nat.add]. rewrite ltd_t by lra. rewrite T, V. op. apply (f_equal Some). replace (/ 2 * 2) with 1 by lra. now rewrite Rmult_1_l.
  - apply partial_intro with (v0 := / 2) (f := fun b => exp (b * 2 * ln (1 / 2))); [reflexivity| |].
    + apply filter_forall. intros b. cbn [upd]. now rewrite T, V.
    + auto_derive; auto. replace (/ 2 * 2) with 1 by lra. rewrite !Rmult_1_l. ring.
  - pose proof ln_half. pose proof (exp_pos (ln (1 / 2))). intros E.
    assert (exp (ln (1 / 2)) * ln (1 / 2) = 0) by lra. apply Rmult_integral in H1. lra.
Qed.
Print Assumptions C35_MultipleBrokenPowerLaw_refuted.

Example C35_case : (forall i, (i < 4)%nat -> BPL2_dom i [2; 2; 2; 2; 1; 1] (trues [2; 2; 2; 2; 1; 1] [1; -1; -2; 3; 1; 9]) 7) /\
  (forall i, Smooth_dom i [2; 2; 2; 2; 2; 2] (trues [2; 2; 2; 2; 2; 2] [1; -1; 3; -2; 4; / 2]) 7) /\
  (forall i, Smooth2_dom i [2; 2; 2; 1; 2; 2; 2; 2; 2] (trues [2; 2; 2; 1; 2; 2; 2; 2; 2] [1; -1; 3; -2; 4; / 2; -3; 5; 1]) 7) /\
  (forall i, (i < 4)%nat -> Band_dom i [2; 2; 2; 2; 1] (trues [2; 2; 2; 2; 1] [1; -1; -2; 3; 2]) 7).
Proof.
  split; [|split; [|split]]; intros i; unfold trues; simpl; repeat split; try lra; auto; intros; lra.
Qed.
Example C35_case_MultipleBrokenPowerLaw : MBPL_addParams 1 [-1; -2; -3] [2; 5] = Ok [1; -1; -2; -3; 2; 5] /\
  forall i, (i < 4)%nat -> MBPL_dom [2; 5] i [3; 3; 1; 3; 1; 1] (trues [3; 3; 1; 3; 1; 1] [1; -1; -2; -3; 2; 5]) 7.
Proof.
  split.
  - unfold MBPL_addParams. simpl. now rewrite ltd_t by lra.
  - intros i Hi. unfold MBPL_dom, trues. simpl. split; [lra|]. split; [lia|]. split; [intros; lra|]. split; [intros; lra|].
    intros A B C. destruct i as [|[|[|[|i]]]]; simpl in *; lia || lra.
Qed.
Example C35_case_BrokenPowerLaw3 : forall i, (i < 4)%nat -> BPL3_dom i [1; 1; 1; 1; 1; 1; 1; 1] (trues [1; 1; 1; 1; 1; 1; 1; 1] [1; 0; 1; 1; 1; 2; 1; 2]) 1.
Proof.
  intros i Hi. unfold trues, BPL3_dom. simpl.
  replace (Rpower (2 * 1) (1 + 1 * 1)) with 4. 2:{ replace (1 + 1 * 1) with (INR 2) by (simpl; lra). rewrite Rpower_pow by lra. simpl. lra. }
  replace (Rpower (1 * 1) (1 + 1 * 1)) with 1. 2:{ replace (1 + 1 * 1) with (INR 2) by (simpl; lra). rewrite Rpower_pow by lra. simpl. lra. }
  replace (Rpower (2 * 1) (1 + 0 * 1)) with 2. 2:{ replace (1 + 0 * 1) with 1 by lra. rewrite Rpower_1 by lra. lra. }
  replace (Rpower (1 * 1) (1 + 0 * 1)) with 1. 2:{ replace (1 + 0 * 1) with 1 by lra. rewrite Rpower_1 by lra. lra. }
  replace (1 * 1 / (1 * 1) * (1 + 0 * 1) / (1 + 1 * 1) * (4 - 1) / (2 - 1)) with (3 / 2) by field.
  repeat split; try lra; auto. replace (1 / (1 * 1 - 0 * 1)) with 1 by field. rewrite Rpower_1 by lra. lra.
Qed.

(** C36: integrals, and C37: continuity of the spectral functions. *)
From Coq Require Import Reals Lra.
From Coquelicot Require Import Coquelicot.
From Verif Require Import Base DerivSpec SpecFn SpecTac SpecPowModel SpecPow SpecExpModel SpecExp SpecBrkModel SpecBrk SpecBrk2 SpecBrk3 SpecListModel SpecList SpecPPL SpecIntModel SpecIntSpec SpecCont SpecInt.
Local Open Scope R_scope.

(** ** C36 *)
(** The integral of the value over the limits is the Integral parameter, for every Index. *)
Theorem C36_PowerLaw2 : forall NN index x1 x2, 0 < x1 -> 0 < x2 -> x1 <> x2 -> integral_is PowerLaw2_value [NN; index; x1; x2] x1 x2 NN.
Proof.
  intros NN g x1 x2 P1 P2 N. destruct (Req_EM_T g (-1)) as [->|G].
  - pose proof (PowerLaw2_int1 NN x1 x2 x1 x2 P1 P2 N P1 P2) as Q. pose proof (ln_neq x1 x2 P1 P2 N) as D.
    replace NN with (NN * ((ln x2 - ln x1) / (ln x2 - ln x1))) at 2 by (field; auto). exact Q.
  - pose proof (PowerLaw2_int NN g x1 x2 x1 x2 P1 P2 N G P1 P2) as Q. pose proof (exp_ln_neq (1 + g) x1 x2 P1 P2 N ltac:(lra)) as D.
    match type of Q with integral_is _ _ _ _ ?v => assert (E : v = NN) by (field; exact D); rewrite E in Q; exact Q end.
Qed.
Print Assumptions C36_PowerLaw2.
(** integral(a, b) is the integral of the value over [a, b].  Missing: Index = -1. *)
Theorem C36_PowerLaw2_integral_partial : forall NN index x1 x2 a b, 0 < x1 -> 0 < x2 -> x1 <> x2 -> 0 < a -> 0 < b -> index <> -1 ->
  exists v, PowerLaw2_integral [NN; index; x1; x2] a b = Some v /\ integral_is PowerLaw2_value [NN; index; x1; x2] a b v.
Proof. intros. now apply PowerLaw2_own. Qed.
Print Assumptions C36_PowerLaw2_integral_partial.
(** For Index = -1 it has no value (0/0), although the integral exists. *)
Theorem C36_PowerLaw2_integral_refuted : forall NN x1 x2 a b, 0 < x1 -> 0 < x2 -> x1 <> x2 -> 0 < a -> 0 < b ->
  PowerLaw2_integral [NN; -1; x1; x2] a b = None /\ exists v, integral_is PowerLaw2_value [NN; -1; x1; x2] a b v.
Proof.
  intros NN x1 x2 a b P1 P2 N A B. split; [|eexists; apply PowerLaw2_int1; auto].
  unfold PowerLaw2_integral. replace (1 - - (-1)) with 0 by ring. rewrite !rpow_ok by auto. rewrite !Rpower_O by auto. unfold rdiv. destruct (Req_EM_T (1 - 1) 0); [reflexivity|lra].
Qed.
Print Assumptions C36_PowerLaw2_integral_refuted.
(** BrokenPowerLaw2, with the break below, between or above the limits.  The index (or indices) in use between the limits must
    not be -1, where the code divides by zero. *)
Theorem C36_BrokenPowerLaw2 : forall NN index1 index2 x0 x1 x2, 0 < x0 -> 0 < x1 -> x1 < x2 -> (x1 <= x0 -> index1 <> -1) -> (x0 <= x2 -> index2 <> -1) ->
  integral_is BPL2_value [NN; index1; index2; x0; x1; x2] x1 x2 NN.
Proof.
  intros NN i1 i2 x0 x1 x2 P0 P1 L I1 I2. assert (A : bpl2_ok i1 i2 x0 x1 x2) by (repeat split; auto).
  destruct (BPL2_form NN _ _ _ _ _ A) as (n0 & _ & V & Q). eapply integral_intro; [|exact Q]. intros x H. apply V. apply (between x1 x2); auto. lra.
Qed.
Print Assumptions C36_BrokenPowerLaw2.
(** Its integral() has to be multiplied by the break energy to be the integral, and not when it starts at the break. *)
Theorem C36_BrokenPowerLaw2_integral_partial : forall NN index1 index2 x0 x1 x2 a b, 0 < x0 -> 0 < x1 -> x1 < x2 -> index1 <> -1 -> index2 <> -1 -> 0 < a -> 0 < b ->
  Rmin a b <> x0 -> exists v, BPL2_integral [NN; index1; index2; x0; x1; x2] a b = Some v /\ integral_is BPL2_value [NN; index1; index2; x0; x1; x2] a b (x0 * v).
Proof. intros. apply BPL2_own; auto. repeat split; auto. Qed.
Print Assumptions C36_BrokenPowerLaw2_integral_partial.
Lemma n0_flat x0 x2 : 1 < x0 -> x0 < x2 -> BPL2_N0 (x2 - 1) 0 0 x0 1 x2 = Some 1.
Proof.
  intros A B. rewrite N0_C by lra. replace (1 - - 0) with 1 by ring. rewrite !Rmult_1_l. rewrite !exp_ln by (apply Rdiv_lt_0_compat; lra). apply (f_equal Some). field. repeat split; lra.
Qed.
(** A constant spectrum of value 1 whose break energy is 2: the integral over [1, 3] is 2, the result is 1. *)
Theorem C36_BrokenPowerLaw2_integral_refuted : exists t a b v w, 0 < a < b /\ BPL2_integral t a b = Some v /\ integral_is BPL2_value t a b w /\ v <> w.
Proof.
  exists [2; 0; 0; 2; 1; 3], 1, 3, 1, 2. split; [lra|]. split; [|split; [|lra]].
  - unfold BPL2_integral. pose proof (n0_flat 2 3 ltac:(lra) ltac:(lra)) as Q. replace (3 - 1) with 2 in Q by ring. rewrite Q. unfold broken_integral. rewrite (ltd_f 3 1) by lra. op.
    rewrite (ltd_t 1 2), (ltd_f 3 2) by lra. cbn [andb negb]. replace (1 - - 0) with 1 by ring. op. rewrite !Rpower_1 by lra. apply (f_equal Some). field.
  - apply C36_BrokenPowerLaw2; lra.
Qed.
Print Assumptions C36_BrokenPowerLaw2_integral_refuted.
(** And when the range starts at the break the index below it is used: break energy 1, value x above it; over [1, 2] the integral
    is 3/2, the result is 1. *)
Theorem C36_BrokenPowerLaw2_integral_from_break_refuted : exists NN index1 index2 x1 x2 b v w, 1 < b /\ 0 < x1 /\ x1 < x2 /\
  BPL2_integral [NN; index1; index2; 1; x1; x2] 1 b = Some v /\ integral_is BPL2_value [NN; index1; index2; 1; x1; x2] 1 b w /\ v <> w.
Proof.
  assert (Q : BPL2_N0 (3 / 2) 0 1 1 1 2 = Some 1).
  { rewrite N0_C by lra. replace (1 - - 0) with 1 by ring. replace (1 - - (1)) with 2 by ring. replace (1 / 1) with 1 by field. replace (2 / 1) with 2 by field.
    replace (2 * ln 2) with (ln 2 + ln 2) by ring. rewrite exp_plus, ln_1, Rmult_0_r, exp_0, exp_ln by lra. apply (f_equal Some). field. }
  exists (3 / 2), 0, 1, 1, 2, 2, 1, (3 / 2). repeat split; try lra.
  - unfold BPL2_integral. rewrite Q. unfold broken_integral. rewrite (ltd_f 2 1) by lra. cbv zeta. cbn [andb negb]. op. rewrite ?(ltd_f 1 1) by lra. cbn [andb negb]. replace (1 - - 0) with 1 by ring. op.
    rewrite !Rpower_1 by lra. apply (f_equal Some). field.
  - apply (C36_BrokenPowerLaw2 (3 / 2) 0 1 1 1 2); lra.
Qed.
Print Assumptions C36_BrokenPowerLaw2_integral_from_break_refuted.
(** BrokenPowerLaw3: each Integral parameter is the integral over its limits, when these are on its side of the break. *)
Theorem C36_BrokenPowerLaw3_partial : forall F1 i1 F2 i2 a1 b1 a2 b2, BPL3_admissible F1 i1 F2 i2 a1 b1 a2 b2 ->
  (a1 < b1 -> b1 <= BPL3_break F1 i1 F2 i2 a1 b1 a2 b2 -> integral_is BPL3_value [F1; i1; F2; i2; a1; b1; a2; b2] a1 b1 F1) /\
  (a2 < b2 -> BPL3_break F1 i1 F2 i2 a1 b1 a2 b2 <= a2 -> integral_is BPL3_value [F1; i1; F2; i2; a1; b1; a2; b2] a2 b2 F2).
Proof. intros. split; [now apply BPL3_int1|now apply BPL3_int2]. Qed.
Print Assumptions C36_BrokenPowerLaw3_partial.
Theorem C36_BrokenPowerLaw3_integral_partial : forall F1 i1 F2 i2 a1 b1 a2 b2 a b, BPL3_admissible F1 i1 F2 i2 a1 b1 a2 b2 -> 0 < a -> 0 < b ->
  Rmin a b <> BPL3_break F1 i1 F2 i2 a1 b1 a2 b2 -> exists v, BPL3_integral [F1; i1; F2; i2; a1; b1; a2; b2] a b = Some v /\
  integral_is BPL3_value [F1; i1; F2; i2; a1; b1; a2; b2] a b (BPL3_break F1 i1 F2 i2 a1 b1 a2 b2 * v).
Proof. intros. apply BPL3_own; auto. Qed.
Print Assumptions C36_BrokenPowerLaw3_integral_partial.
Lemma break_32 : BPL3_admissible 1 0 1 1 1 2 1 2 /\ BPL3_break 1 0 1 1 1 2 1 2 = 3 / 2.
Proof.
  unfold BPL3_admissible, BPL3_break.
  replace (Rpower 2 (1 + 1)) with 4. 2:{ replace (1 + 1) with (INR 2) by (simpl; lra). rewrite Rpower_pow by lra. simpl. lra. }
  replace (Rpower 1 (1 + 1)) with 1. 2:{ replace (1 + 1) with (INR 2) by (simpl; lra). rewrite Rpower_pow by lra. simpl. lra. }
  replace (Rpower 2 (1 + 0)) with 2. 2:{ replace (1 + 0) with 1 by lra. rewrite Rpower_1 by lra. lra. }
  replace (Rpower 1 (1 + 0)) with 1. 2:{ replace (1 + 0) with 1 by lra. rewrite Rpower_1 by lra. lra. }
  replace (1 / 1 * (1 + 0) / (1 + 1) * (4 - 1) / (2 - 1)) with (3 / 2) by field. replace (1 / (1 - 0)) with 1 by field. rewrite Rpower_1 by lra. repeat split; lra.
Qed.
(** With the break at 3/2 and the value 1 below it: over [1, 5/4] the integral is 1/4, the result 1/6. *)
Theorem C36_BrokenPowerLaw3_integral_refuted : exists t a b v w, 0 < a < b /\ BPL3_integral t a b = Some v /\ integral_is BPL3_value t a b w /\ v <> w.
Proof.
  destruct break_32 as (A & B). exists [1; 0; 1; 1; 1; 2; 1; 2], 1, (5 / 4).
  assert (M : Rmin 1 (5 / 4) = 1) by (apply Rmin_left; lra).
  destruct (BPL3_own 1 0 1 1 1 2 1 2 1 (5 / 4) A Rlt_0_1 ltac:(lra)) as (v & Q1 & Q2). { left. rewrite B, M. lra. }
  exists v, (BPL3_break 1 0 1 1 1 2 1 2 * v). split; [lra|]. split; [exact Q1|]. split; [exact Q2|]. rewrite B.
  enough (v <> 0) by lra. intros ->. revert Q1. unfold BPL3_integral.
  assert (K : ok3 1 2 1 2 1 0 1 1) by (destruct A as (_ & _ & _ & _ & _ & _ & F & I1 & I2 & I & C); repeat split; auto).
  rewrite x0_ok by (auto; lra). change (brk3 1 2 1 2 1 0 1 1) with (BPL3_break 1 0 1 1 1 2 1 2). rewrite B. rewrite n0_ok by lra. unfold pd.
  replace (1 + 0) with 1 by ring. rewrite !Rmult_1_l, !exp_ln by lra. rewrite Rmult_0_l, exp_0. unfold broken_integral. rewrite (ltd_f (5 / 4) 1) by lra. op.
  rewrite (ltd_t 1 (3 / 2)), (ltd_t (5 / 4) (3 / 2)), (ltd_f (3 / 2) 1) by lra. cbn [andb negb]. op. rewrite !Rpower_1 by lra. intros Q. injection Q as Q. lra.
Qed.
Print Assumptions C36_BrokenPowerLaw3_integral_refuted.
Example C36_case : 0 < 3 /\ 0 < 1 /\ 1 < 9 /\ (1 <= 3 -> -2 <> -1) /\ (3 <= 9 -> -3 <> -1) /\ BPL3_admissible 1 0 1 1 1 2 1 2 /\ BPL3_break 1 0 1 1 1 2 1 2 = 3 / 2.
Proof. repeat split; try lra; try apply break_32. Qed.

(** ** C37 *)
Theorem C37_ExpCutoff : forall pref index scale ebreak p1 p2 p3, 0 < scale -> 0 < ebreak -> p1 <> 0 -> continuous_spectrum ExpCutoff_value [pref; index; scale; ebreak; p1; p2; p3].
Proof. exact ExpCutoff_cont. Qed.
Print Assumptions C37_ExpCutoff.
Theorem C37_BandFunction : forall norm alpha beta Ep Scale, 0 < Scale -> 0 < Ep -> continuous_spectrum Band_value [norm; alpha; beta; Ep; Scale].
Proof. exact Band_cont. Qed.
Print Assumptions C37_BandFunction.
Theorem C37_BrokenPowerLaw2 : forall NN index1 index2 x0 x1 x2, 0 < x0 -> 0 < x1 -> x1 < x2 -> (x1 <= x0 -> index1 <> -1) -> (x0 <= x2 -> index2 <> -1) ->
  continuous_spectrum BPL2_value [NN; index1; index2; x0; x1; x2].
Proof. exact BPL2_cont. Qed.
Print Assumptions C37_BrokenPowerLaw2.
Theorem C37_BrokenPowerLaw3 : forall F1 i1 F2 i2 a1 b1 a2 b2, BPL3_admissible F1 i1 F2 i2 a1 b1 a2 b2 -> continuous_spectrum BPL3_value [F1; i1; F2; i2; a1; b1; a2; b2].
Proof. exact BPL3_cont. Qed.
Print Assumptions C37_BrokenPowerLaw3.
Theorem C37_MultipleBrokenPowerLaw : forall normalization photonIndexes breakEnergies p0, MBPL_addParams normalization photonIndexes breakEnergies = Ok p0 ->
  breakEnergies <> [] -> Forall (Rlt 0) breakEnergies -> forall t, length t = length p0 -> continuous_spectrum (MBPL_value breakEnergies) t.
Proof.
  intros N ix br p0 H NE P t Lt. unfold MBPL_addParams in H. destruct (Nat.eqb_spec (length ix) (length br + 1)) as [L|]; [|discriminate]. simpl in H.
  destruct (increasing br) eqn:I; [|discriminate]. injection H as <-. simpl in Lt. rewrite app_length in Lt.
  assert (NE' : (0 < length br)%nat) by (destruct br; [congruence|simpl; lia]).
  assert (POS : forall j, (j < length br)%nat -> 0 < nth j br 0) by (intros j Hj; rewrite Forall_forall in P; apply P; now apply nth_In).
  eapply cont_intro.
  - intros x Hx. apply (MBPL_ok br); auto. lia.
  - intros x Hx. apply (MBPL_continuous br); auto. lia.
Qed.
Print Assumptions C37_MultipleBrokenPowerLaw.
Theorem C37_PiecewisePowerLaw : forall dec indexL indexH dNdEs energies p0, PPL_addParams indexL indexH dNdEs energies = Ok p0 ->
  energies <> [] -> Forall (Rlt 0) energies -> forall t, length t = length p0 ->
  (forall k, (k < length energies)%nat -> dec = true \/ (0 < k)%nat -> 0 < nth (2 + k) t 0) -> continuous_spectrum (PPL_value dec energies) t.
Proof.
  intros dec iL iH ds en p0 H N P t Lt A. unfold PPL_addParams in H. destruct (Nat.eqb_spec (length ds) (length en)) as [L|]; [|discriminate]. simpl in H.
  destruct (increasing en) eqn:I; [|discriminate]. injection H as <-. simpl in Lt. rewrite app_length in Lt.
  assert (NE' : (0 < length en)%nat) by (destruct en; [congruence|simpl; lia]).
  assert (POS : forall j, (j < length en)%nat -> 0 < nth j en 0) by (intros j Hj; rewrite Forall_forall in P; apply P; now apply nth_In).
  assert (AP : allpos dec en t). { intros k Hk. unfold Dk. destruct dec; [auto|]. destruct k; [lra|]. apply A; auto. right. lia. }
  eapply cont_intro.
  - intros x Hx. apply (curve_ok dec en); auto. lia.
  - intros x Hx. apply (PPL_continuous dec en); auto. lia.
Qed.
Print Assumptions C37_PiecewisePowerLaw.
(** BPLExpCutoff: only away from the break and from Eabs, ... *)
Theorem C37_BPLExpCutoff_partial : forall pref index1 index2 breakvalue eabs p1, 0 < breakvalue -> p1 <> 0 ->
  exists f, forall x, 0 < x -> x <> breakvalue -> x <> eabs -> BPLExp_value [pref; index1; index2; breakvalue; eabs; p1] x = Some (f x) /\ continuity_pt f x.
Proof. exact BPLExp_cont. Qed.
Print Assumptions C37_BPLExpCutoff_partial.
(** ... at the break it always drops to 0. *)
Theorem C37_BPLExpCutoff_refuted : forall pref index1 index2 breakvalue eabs p1, pref <> 0 -> 0 < breakvalue -> breakvalue <> eabs -> p1 <> 0 ->
  BPLExp_value [pref; index1; index2; breakvalue; eabs; p1] breakvalue = Some 0 /\ jump BPLExp_value [pref; index1; index2; breakvalue; eabs; p1] breakvalue.
Proof. intros. split; [apply BPLExp_at; auto; lra|now apply BPLExp_jump]. Qed.
Print Assumptions C37_BPLExpCutoff_refuted.
(** PLSuperExpCutoff4 jumps where the Taylor polynomial takes over. *)
Theorem C37_PLSuperExpCutoff4_refuted : exists t x, 0 < x /\ jump PLSuper4_value t x.
Proof. exists [1; 0; 1; 1; 1], (exp (1 / 100)). split; [apply exp_pos|exact PLSuper4_jump]. Qed.
Print Assumptions C37_PLSuperExpCutoff4_refuted.
(** A spectrum that jumps is not continuous. *)
Theorem C37_jump_excludes : forall V t x, 0 < x -> jump V t x -> ~ continuous_spectrum V t.
Proof.
  intros V t x Hx (v & eps & E & P & J) (f & F). destruct (F x Hx) as (E' & C). rewrite E in E'. injection E' as ->.
  destruct (C (Rmin eps (Rabs (f x) + 1))) as (al & Ha & Q). { apply Rmin_pos; [lra|]. pose proof (Rabs_pos (f x)). lra. } simpl in Q. unfold R_dist in Q.
  destruct (J (Rmin al x)) as (y & w & Y & W & D). { apply Rmin_pos; lra. }
  assert (0 < y). { assert (Rabs (y - x) < x) by (eapply Rlt_le_trans; [exact Y|apply Rmin_r]). apply Rabs_def2 in H. lra. }
  destruct (F y H) as (E2 & _). rewrite E2 in W. injection W as W.
  subst w. destruct (Req_EM_T x y) as [<-|Ne]. { replace (f x - f x) with 0 in D by ring. rewrite Rabs_R0 in D. lra. }
  assert (Rabs (f y - f x) < Rmin eps (Rabs (f x) + 1)). { apply Q. split; [split; [exact I|exact Ne]|]. eapply Rlt_le_trans; [exact Y|apply Rmin_l]. }
  pose proof (Rmin_l eps (Rabs (f x) + 1)). lra.
Qed.
Print Assumptions C37_jump_excludes.
Example C37_case : MBPL_addParams 1 [-1; -2; -3] [2; 5] = Ok [1; -1; -2; -3; 2; 5] /\ PPL_addParams (-1) (-2) [1; 2] [1; 5] = Ok [-1; -2; 1; 2; 1; 5] /\
  BPL3_admissible 1 0 1 1 1 2 1 2.
Proof. unfold MBPL_addParams, PPL_addParams. simpl. rewrite !ltd_t by lra. repeat split; try apply break_32. Qed.

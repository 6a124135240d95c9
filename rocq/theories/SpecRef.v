(** Where the derivatives are wrong (proofs of the refutations of C33 - C35). *)
From Coq Require Import Reals Lra.
From Coquelicot Require Import Coquelicot.
From Verif Require Import Base DerivSpec NewtonFit SpecFn SpecDom SpecTac SpecPowModel SpecPow SpecExpModel SpecExp SpecBrkModel SpecBrk SpecBrk2.
Local Open Scope R_scope.

(** A function that does not move with a parameter. *)
Lemma partial_flat (F : list R -> option R) p i v0 c : nth_error p i = Some v0 -> locally v0 (fun v => F (upd p i v) = Some c) -> partial_at F p i 0.
Proof. intros H L. apply (partial_intro F p i v0 0 (fun _ => c)); auto. apply is_derive_Reals. apply derivable_pt_lim_const. Qed.
Lemma wrong F p i d d' : partial_at F p i d' -> d <> d' -> ~ partial_at F p i d.
Proof. intros H N H'. apply N. eapply partial_at_unique; eauto. Qed.
Lemma wrong_scale F sc p i s d : nth_error sc i = Some s -> (i < length p)%nat -> partial_at F (trues sc p) i d -> s <> 1 -> d <> 0 ->
  ~ partial_at (fun q => F (trues sc q)) p i d.
Proof.
  intros Hs Hi H N Nd. eapply wrong. apply (partial_scale F sc p i s d Hs Hi H). intros E. assert (d * (s - 1) = 0) by lra.
  apply Rmult_integral in H0. lra.
Qed.
(** With unit scales the values are the true values. *)
Lemma trues_ones p : trues (repeat 1 (length p)) p = p.
Proof. induction p as [|a p IH]; simpl; auto. unfold trues in *. simpl. rewrite IH. f_equal. ring. Qed.
Lemma partial_ext (F G : list R -> option R) p i d : (forall q, F q = G q) -> partial_at F p i d -> partial_at G p i d.
Proof. intros E (v & e & f & A & B & C & D). exists v, e, f. repeat split; auto. intros w Hw. rewrite <- E. auto. Qed.
Lemma max_exp_pos : 0 < max_exp.
Proof. unfold max_exp. rewrite <- ln_1. apply ln_increasing; [lra|]. apply Rlt_pow_R1; [lra|lia]. Qed.
Lemma trues1 n p : length p = n -> trues (repeat 1 n) p = p.
Proof. intros <-. apply trues_ones. Qed.
Lemma partial_ones n (F : list R -> option R) p i d : length p = n -> partial_at (fun q => F (trues (repeat 1 n) q)) p i d -> partial_at F p i d.
Proof.
  intros L (v & e & f & A & B & C & D). exists v, e, f. repeat split; auto. intros w Hw. rewrite <- C by auto. rewrite trues1; auto. now rewrite upd_length.
Qed.
Ltac unit_scales := rewrite ?trues1 by reflexivity.

Lemma Band_alpha_wrong : Band_deriv 1%nat [1; 0; 1; 1; 1] [1; 1; 1; 1; 1] 2 = Some (ln 2) /\
  partial_at (fun q => Band_value q 2) [1; 0; 1; 1; 1] 1 0.
Proof.
  split.
  - unfold Band_deriv. cbn [nth_error]. op. unfold Rltd. destruct (Rlt_dec 1 0); [lra|]. replace (2 / 1) with 2 by lra. op.
    rewrite Rpower_O by lra. f_equal. ring.
  - eapply partial_flat; [reflexivity|].
    eapply filter_imp; [|exact (near_lt (fun v => v) (fun _ => 1) 0 ltac:(ctn) ltac:(ctn) Rlt_0_1)].
    intros v Hv. cbn [upd]. apply Band_flat; lra.
Qed.
Lemma PLSuper2_wrong : PLSuper2_deriv 3%nat [1; 0; 1; -2 * max_exp; 1] [1; 1; 1; 1; 1] 1 = Some (- exp max_exp) /\
  partial_at (fun q => PLSuper2_value q 1) [1; 0; 1; -2 * max_exp; 1] 3 0.
Proof.
  pose proof max_exp_pos as M. assert (V : forall ef, ef < - max_exp -> PLSuper2_value [1; 0; 1; ef; 1] 1 = Some (exp max_exp)).
  { intros ef H. rewrite PLSuper2_ok by lra. rewrite ln_1, Rmult_0_r, exp_0, Rmult_1_r. rewrite Rmin_right by lra. f_equal. replace (0 * _) with 0 by ring. rewrite exp_0. ring. }
  split.
  - unfold PLSuper2_deriv. cbn [nth_error]. rewrite V by lra. op. rewrite Rpower_1 by lra. f_equal. ring.
  - eapply partial_flat; [reflexivity|].
    eapply filter_imp; [|exact (near_lt (fun v => v) (fun _ => - max_exp) (-2 * max_exp) ltac:(ctn) ltac:(ctn) ltac:(simpl; lra))].
    intros v Hv. cbn [upd]. apply V. exact Hv.
Qed.
Lemma PLSuper3_wrong : PLSuper3_deriv 1%nat [1; 2 * max_exp; 1; 0; 1] [1; 1; 1; 1; 1] (exp 1) = Some (exp max_exp) /\
  partial_at (fun q => PLSuper3_value q (exp 1)) [1; 2 * max_exp; 1; 0; 1] 1 0.
Proof.
  pose proof max_exp_pos as M. pose proof (exp_pos 1) as E1.
  assert (L : ln (exp 1 / 1) = 1) by (replace (exp 1 / 1) with (exp 1) by lra; apply ln_exp).
  assert (V : forall iS, max_exp < iS -> PLSuper3_value [1; iS; 1; 0; 1] (exp 1) = Some (exp max_exp)).
  { intros iS H. rewrite PLSuper3_ok by lra. rewrite L. rewrite Rmin_right by lra. f_equal. ring. }
  split.
  - unfold PLSuper3_deriv. cbn [nth_error]. rewrite V by lra. op. rewrite L. f_equal. ring.
  - eapply partial_flat; [reflexivity|].
    eapply filter_imp; [|exact (near_lt (fun _ => max_exp) (fun v => v) (2 * max_exp) ltac:(ctn) ltac:(ctn) ltac:(simpl; lra))].
    intros v Hv. cbn [upd]. apply V. exact Hv.
Qed.
Lemma PLSuper4_wrong : PLSuper4_deriv 1%nat [1; 2 * max_exp; 1; 0; 1] [1; 1; 1; 1; 1] (exp 1) = Some (exp max_exp) /\
  partial_at (fun q => PLSuper4_value q (exp 1)) [1; 2 * max_exp; 1; 0; 1] 1 0.
Proof.
  pose proof max_exp_pos as M. pose proof (exp_pos 1) as E1.
  assert (L : ln (exp 1 / 1) = 1) by (replace (exp 1 / 1) with (exp 1) by lra; apply ln_exp).
  assert (V : forall iS, max_exp < iS -> PLSuper4_value [1; iS; 1; 0; 1] (exp 1) = Some (exp max_exp)).
  { intros iS H. unfold PLSuper4_value. op. rewrite L. rewrite ltd_f by (rewrite Rmult_1_r, Rabs_R1; lra). op. rewrite Rmin_right by (unfold Rdiv; lra). f_equal. ring. }
  split.
  - unfold PLSuper4_deriv. cbn [nth_error]. rewrite V by lra. op. rewrite L. f_equal. ring.
  - eapply partial_flat; [reflexivity|].
    eapply filter_imp; [|exact (near_lt (fun _ => max_exp) (fun v => v) (2 * max_exp) ltac:(ctn) ltac:(ctn) ltac:(simpl; lra))].
    intros v Hv. cbn [upd]. apply V. exact Hv.
Qed.
Lemma BPL2_1 i1 : BPL2_value [1; i1; 0; 2; 3; 4] 1 = Some (exp (i1 * ln (1 / 2))).
Proof.
  rewrite BPL2_A1 by lra. f_equal. replace (1 - - 0) with 1 by ring. rewrite Ropp_involutive, !Rmult_1_l. rewrite !exp_ln by lra. field.
Qed.
Lemma ln_half : ln (1 / 2) <> 0.
Proof. pose proof (ln_increasing (1/2) 1 ltac:(lra) ltac:(lra)) as H. rewrite ln_1 in H. lra. Qed.
Lemma BPL2_wrong : BPL2_deriv 1%nat [1; 0; 0; 2; 3; 4] [1; 1; 1; 1; 1; 1] 1 = Some 0 /\
  partial_at (fun q => BPL2_value q 1) [1; 0; 0; 2; 3; 4] 1 (ln (1 / 2)).
Proof.
  split.
  - unfold BPL2_deriv. cbn [nth_error]. rewrite N0_A by lra. op. rewrite ltd_t by lra. reflexivity.
  - eapply partial_intro; [reflexivity| |].
    + always. apply BPL2_1.
    + auto_derive; auto. rewrite Rmult_0_l, exp_0. ring.
Qed.
Lemma BPLExp_wrong : BPLExp_deriv 0%nat [0; 0; 0; 1; 1; 1] [1; 1; 1; 1; 2; 1] 2 = Some 1 /\
  partial_at (fun q => BPLExp_value q 2) [0; 0; 0; 1; 1; 1] 0 (exp (-1)).
Proof.
  split.
  - unfold BPLExp_deriv. cbn [nth_error]. rewrite BPLExp_4 by lra. op. destruct (Req_EM_T 0 0); [|lra]. rewrite !ltd_f, !ltd_t by lra. simpl. op.
    f_equal. replace (Rpower (2/1) 0) with 1 by (unfold Rpower; rewrite Rmult_0_l, exp_0; reflexivity). replace (- (2 - 1 * 2) / 1 * 1) with 0 by field. rewrite exp_0. ring.
  - eapply partial_intro; [reflexivity| |].
    + always. apply BPLExp_4; lra.
    + auto_derive; auto. rewrite Rmult_0_l, exp_0. rewrite !Rmult_1_l. f_equal. field.
Qed.
Lemma Smooth2_true : exists d, d <> 0 /\ Smooth2_deriv 3%nat [1; 0; 1; 0; 1; 1; 0; 2; 1] [1; 1; 1; 2; 1; 1; 1; 1; 1] 1 = Some d /\
  partial_at (fun q => Smooth2_value q 1) [1; 0; 1; 0; 1; 1; 0; 2; 1] 3 d.
Proof.
  pose (t := [1; 0; 1; 0; 1; 1; 0; 2; 1]). destruct (Smooth2_derivs (repeat 1 9) t 1 3%nat) as (d & A & B); try reflexivity; try lia.
  { unfold t. rewrite trues1 by reflexivity. simpl. repeat split; try lra; try reflexivity; auto; discriminate. }
  unfold t in *. rewrite trues1 in A by reflexivity. exists d.
  assert (E : Smooth2_deriv 3%nat [1; 0; 1; 0; 1; 1; 0; 2; 1] [1; 1; 1; 2; 1; 1; 1; 1; 1] 1 = Some d) by exact A.
  split; [|split; [exact E|]].
  - unfold Smooth2_deriv in A. cbn [nth_error repeat] in A. rewrite Smooth2_ok in A by lra.
    rewrite !rdiv_ok in A by lra. rewrite !rpow_ok in A by (try lra; apply Rdiv_lt_0_compat; lra).
    rewrite !rlog_ok in A by lra. unfold Rpower in A. rewrite !rdiv_ok in A by (match goal with |- 1 + exp ?a <> 0 => pose proof (exp_pos a); lra end).
    injection A as <-. replace (1 / 1) with 1 by field. rewrite ln_1. replace ((0 - 0) / 1 * ln (1 / 2)) with 0 by field. rewrite exp_0.
    match goal with |- ?v * ?w <> 0 => assert (0 < v) end. { repeat apply Rmult_lt_0_compat; try lra; apply exp_pos. }
    apply Rmult_integral_contrapositive_currified; [lra|]. pose proof ln_half. rewrite Rmult_0_l. unfold Rdiv. rewrite Rmult_0_l. intros Q. apply H0. lra.
  - apply (partial_ones 9 (fun q => Smooth2_value q 1)) in B; [exact B|reflexivity].
Qed.

(** From a witness with unit scales, from one with a scale missing, and for a zero prefactor. *)
Lemma ones_nz n : Forall (fun s => s <> 0) (repeat 1 n).
Proof. apply Forall_forall. intros s H. apply repeat_spec in H. lra. Qed.
Lemma wrong_ones n V D i p x d d' : length p = n -> 0 < x -> D i p (repeat 1 n) x = Some d -> partial_at (fun q => V q x) p i d' -> d <> d' -> derivative_wrong n V D i.
Proof.
  intros L X A B N. exists (repeat 1 n), p, x, d, d'. rewrite trues1 by auto. repeat split; auto using repeat_length, ones_nz.
  destruct B as (v & e & f & B1 & B2 & B3 & B4). exists v, e, f. repeat split; auto. intros w W. rewrite trues1 by (now rewrite upd_length). auto.
Qed.
(** [d] is the derivative with respect to the true value, and the result although the scale is 2. *)
Lemma wrong_two n V D i sc p x d : length sc = n -> length p = n -> Forall (fun s => s <> 0) sc -> nth_error sc i = Some 2 -> 0 < x -> D i (trues sc p) sc x = Some d ->
  partial_at (fun q => V q x) (trues sc p) i d -> d <> 0 -> derivative_wrong n V D i.
Proof.
  intros Ls Lp F Hs X A B N. exists sc, p, x, d, (d * 2). repeat split; auto; [|lra].
  apply (partial_scale (fun q => V q x) sc p i 2 d); auto. apply nth_error_Some_lt in Hs || (assert (i < length sc)%nat by (apply nth_error_Some; congruence)). lia.
Qed.
Lemma missing_zero n (V : fvalue) D p x c : length p = n -> nth_error p 0 = Some 0 -> 0 < x -> D 0%nat p (repeat 1 n) x = None -> (forall v, V (upd p 0 v) x = Some (v * c)) -> derivative_missing n V D 0.
Proof.
  intros L P X A B. exists (repeat 1 n), p, x, c. rewrite trues1 by auto. repeat split; auto using repeat_length, ones_nz.
  apply partial_intro with (v0 := 0) (f := fun v => v * c); auto.
  - apply filter_forall. intros v. rewrite trues1 by (now rewrite upd_length). apply B.
  - auto_derive; auto. ring.
Qed.
Lemma EblAtten_wrong : derivative_wrong 7 (EblAtten_value (fun _ _ _ => 1) 4 LogParabola_value) (EblAtten_deriv (fun _ _ _ => 1) 4 LogParabola_value LogParabola_deriv) 4.
Proof.
  assert (V1 : LogParabola_value [1; 0; 0; 1] 1 = Some 1). { rewrite LogParabola_ok by lra. f_equal. replace (1 / 1) with 1 by lra. rewrite ln_1, Rmult_0_r, exp_0. ring. }
  assert (V : forall v, EblAtten_value (fun _ _ _ => 1) 4 LogParabola_value [1; 0; 0; 1; v; 1; 1] 1 = Some (exp (- v * 1))).
  { intros v. unfold EblAtten_value. cbn [firstn]. rewrite V1. unfold attenuation. cbn [nth_error Nat.add]. f_equal. ring. }
  assert (T : trues [1; 1; 1; 1; 2; 1; 1] [1; 0; 0; 1; / 2; 1; 1] = [1; 0; 0; 1; 1; 1; 1]) by (unfold trues; simpl; repeat (f_equal; try lra)).
  apply (wrong_two 7 _ _ 4 [1; 1; 1; 1; 2; 1; 1] [1; 0; 0; 1; / 2; 1; 1] 1 (- exp (- 1 * 1))); rewrite ?T; try reflexivity; try lra.
  - repeat constructor; lra.
  - unfold EblAtten_deriv. change (4 <? 4)%nat with false. change (4 =? 4)%nat with true. cbv iota. rewrite V. cbn [nth_error Nat.add]. apply (f_equal Some); replace (- (1) * 1) with (-1 * 1) by ring; ring.
  - eapply partial_intro; [reflexivity| |].
    + always. apply V.
    + auto_derive; auto. replace (- (1) * 1) with (-1 * 1) by ring. ring.
  - pose proof (exp_pos (- 1 * 1)). lra.
Qed.
Lemma Smooth2_wrong : derivative_wrong 9 Smooth2_value Smooth2_deriv 3.
Proof.
  destruct Smooth2_true as (d & N & A & B).
  assert (T : trues [1; 1; 1; 2; 1; 1; 1; 1; 1] [1; 0; 1; 0; 1; 1; 0; 2; 1] = [1; 0; 1; 0; 1; 1; 0; 2; 1]) by (unfold trues; simpl; repeat (f_equal; try lra)).
  apply (wrong_two 9 _ _ 3 [1; 1; 1; 2; 1; 1; 1; 1; 1] [1; 0; 1; 0; 1; 1; 0; 2; 1] 1 d); rewrite ?T; try reflexivity; auto; try lra. repeat constructor; lra.
Qed.
Lemma BPLExp_wrong' : derivative_wrong 6 BPLExp_value BPLExp_deriv 0.
Proof.
  destruct BPLExp_wrong as (A & B).
  assert (T : trues [1; 1; 1; 1; 2; 1] [0; 0; 0; 1; / 2; 1] = [0; 0; 0; 1; 1; 1]) by (unfold trues; simpl; repeat (f_equal; try lra)).
  exists [1; 1; 1; 1; 2; 1], [0; 0; 0; 1; / 2; 1], 2, 1, (exp (-1)). rewrite T. repeat split; auto; try lra.
  - repeat constructor; lra.
  - replace (exp (-1)) with (exp (-1) * 1) by ring.
    apply (partial_scale (fun q => BPLExp_value q 2) [1; 1; 1; 1; 2; 1] [0; 0; 0; 1; / 2; 1] 0 1); [reflexivity|simpl; lia|]. rewrite T. exact B.
  - pose proof (exp_increasing (-1) 0 ltac:(lra)) as Q. rewrite exp_0 in Q. lra.
Qed.

(** BrokenPowerLaw3: derivatives (proofs of C35). *)
From Coq Require Import Reals Lra.
From Coquelicot Require Import Coquelicot.
From Verif Require Import Base DerivSpec SpecFn SpecDom SpecTac SpecPow SpecExpModel SpecExp SpecBrkModel SpecBrk SpecBrk2.
Local Open Scope R_scope.

Section BPL3.
Context (a1 b1 a2 b2 x : R).
Hypotheses (Hx : 0 < x) (Ha1 : 0 < a1) (Hb1 : 0 < b1) (Ha2 : 0 < a2) (Hb2 : 0 < b2) (H1 : a1 <> b1) (H2 : a2 <> b2).
Definition pd (o a b : R) : R := exp (o * ln b) - exp (o * ln a).
Definition base3 (F1 i1 F2 i2 : R) : R := F1 / F2 * (1 + i1) / (1 + i2) * pd (1 + i2) a2 b2 / pd (1 + i1) a1 b1.
Definition brk3 (F1 i1 F2 i2 : R) : R := exp (1 / (i2 - i1) * ln (base3 F1 i1 F2 i2)).
Definition ok3 (F1 i1 F2 i2 : R) : Prop := F2 <> 0 /\ i1 <> -1 /\ i2 <> -1 /\ i1 <> i2 /\ 0 < base3 F1 i1 F2 i2.
Lemma pd1_nz i : i <> -1 -> pd (1 + i) a1 b1 <> 0.
Proof. intros H. apply exp_ln_neq; auto. lra. Qed.
Lemma pd2_nz i : i <> -1 -> pd (1 + i) a2 b2 <> 0.
Proof. intros H. apply exp_ln_neq; auto. lra. Qed.
Lemma x0_ok F1 i1 F2 i2 : ok3 F1 i1 F2 i2 -> BPL3_x0 F1 i1 F2 i2 a1 b1 a2 b2 = Some (brk3 F1 i1 F2 i2).
Proof.
  intros (F & I1 & I2 & I & B). pose proof (pd1_nz i1 I1) as D1. unfold BPL3_x0. assert (1 + i2 <> 0) by lra. assert (i2 - i1 <> 0) by lra. op1. try (rewrite rdiv_ok by exact D1; op1).
  try (rewrite rpow_ok by exact B). reflexivity.
Qed.
Lemma n0_ok F1 i1 x0 : 0 < x0 -> i1 <> -1 -> BPL3_N0 x0 F1 i1 a1 b1 = Some (F1 * (1 + i1) * exp (i1 * ln x0) / pd (1 + i1) a1 b1).
Proof. intros P I1. pose proof (pd1_nz i1 I1) as D1. unfold BPL3_N0. op1. try (rewrite rdiv_ok by exact D1). reflexivity. Qed.
Definition low3 (F1 i1 F2 i2 : R) : R := F1 * (1 + i1) * exp (i1 * ln x) / pd (1 + i1) a1 b1.
Definition high3 (F1 i1 F2 i2 : R) : R := F2 * (1 + i2) * exp (i2 * ln x) / pd (1 + i2) a2 b2.
Lemma low_eq F1 i1 F2 i2 : ok3 F1 i1 F2 i2 -> F1 * (1 + i1) * exp (i1 * ln (brk3 F1 i1 F2 i2)) / pd (1 + i1) a1 b1 * exp (i1 * ln (x / brk3 F1 i1 F2 i2)) = low3 F1 i1 F2 i2.
Proof.
  intros (F & I1 & I2 & I & B). pose proof (pd1_nz i1 I1) as D1. unfold low3. rewrite ln_div by (auto; apply exp_pos).
  replace (exp (i1 * (ln x - ln (brk3 F1 i1 F2 i2)))) with (exp (i1 * ln x) / exp (i1 * ln (brk3 F1 i1 F2 i2))). field. split; auto. apply Rgt_not_eq, exp_pos.
  unfold Rdiv. rewrite <- exp_Ropp, <- exp_plus. f_equal. ring.
Qed.
Lemma high_eq F1 i1 F2 i2 : ok3 F1 i1 F2 i2 -> F1 * (1 + i1) * exp (i1 * ln (brk3 F1 i1 F2 i2)) / pd (1 + i1) a1 b1 * exp (i2 * ln (x / brk3 F1 i1 F2 i2)) = high3 F1 i1 F2 i2.
Proof.
  intros (F & I1 & I2 & I & B). pose proof (pd1_nz i1 I1) as D1. pose proof (pd2_nz i2 I2) as D2. unfold high3. rewrite ln_div by (auto; apply exp_pos).
  assert (F1 <> 0). { intros ->. unfold base3 in B. unfold Rdiv in B. rewrite !Rmult_0_l in B. lra. }
  replace (exp (i2 * (ln x - ln (brk3 F1 i1 F2 i2)))) with (exp (i2 * ln x) * / (base3 F1 i1 F2 i2) / exp (i1 * ln (brk3 F1 i1 F2 i2))).
  - unfold base3. field. repeat split; auto; try lra. apply Rgt_not_eq, exp_pos.
  - rewrite <- (exp_ln _ B) at 1. unfold Rdiv. rewrite <- !exp_Ropp, <- !exp_plus. f_equal. unfold brk3. rewrite ln_exp. field. lra.
Qed.
Lemma BPL3_low F1 i1 F2 i2 : ok3 F1 i1 F2 i2 -> x < brk3 F1 i1 F2 i2 -> BPL3_value [F1; i1; F2; i2; a1; b1; a2; b2] x = Some (low3 F1 i1 F2 i2).
Proof.
  intros K L. unfold BPL3_value. rewrite x0_ok by auto. assert (0 < brk3 F1 i1 F2 i2) by apply exp_pos. destruct K as (F & I1 & K). rewrite n0_ok by auto. op1. rewrite ltd_t by auto. op1. f_equal. apply low_eq. split; auto.
Qed.
Lemma BPL3_high F1 i1 F2 i2 : ok3 F1 i1 F2 i2 -> brk3 F1 i1 F2 i2 <= x -> BPL3_value [F1; i1; F2; i2; a1; b1; a2; b2] x = Some (high3 F1 i1 F2 i2).
Proof.
  intros K L. unfold BPL3_value. rewrite x0_ok by auto. assert (0 < brk3 F1 i1 F2 i2) by apply exp_pos. destruct K as (F & I1 & K). rewrite n0_ok by auto. op1. rewrite ltd_f by auto. op1. f_equal. apply high_eq. split; auto.
Qed.
(** What holds near. *)
Section Near.
Context (F1 i1 F2 i2 : R).
Hypothesis K : ok3 F1 i1 F2 i2.
Lemma F1_nz : F1 <> 0.
Proof. destruct K as (F & I1 & I2 & I & B). intros E. unfold base3 in B. rewrite E in B. unfold Rdiv in B. rewrite !Rmult_0_l in B. lra. Qed.
Lemma pd_ders o a b : ex_derive (fun v => pd (1 + v) a b) o.
Proof. unfold pd. auto_derive. auto. Qed.
Ltac bder := unfold brk3, base3; match goal with |- ex_derive _ _ => idtac end.
Lemma near0 : locally F1 (fun v => ok3 v i1 F2 i2) /\ ex_derive (fun v => brk3 v i1 F2 i2) F1.
Proof.
  destruct K as (F & I1 & I2 & I & B). pose proof (pd1_nz i1 I1) as D1. assert (D : ex_derive (fun v => base3 v i1 F2 i2) F1) by (unfold base3; auto_derive; auto). split.
  - eapply filter_imp; [|exact (near_lt (fun _ => 0) (fun v => base3 v i1 F2 i2) F1 ltac:(ctn) D B)]. intros v Hv. repeat split; auto.
  - unfold brk3. apply (ex_derive_comp exp); [auto_derive; auto|]. apply ex_derive_scal. apply (ex_derive_comp ln); auto. exists (/ base3 F1 i1 F2 i2). now apply is_derive_ln.
Qed.
Lemma near2 : locally F2 (fun v => ok3 F1 i1 v i2) /\ ex_derive (fun v => brk3 F1 i1 v i2) F2.
Proof.
  destruct K as (F & I1 & I2 & I & B). pose proof (pd1_nz i1 I1) as D1. assert (D : ex_derive (fun v => base3 F1 i1 v i2) F2) by (unfold base3; auto_derive; auto). split.
  - eapply filter_imp; [|exact (near_and _ _ _ (near_ne (fun v => v) F2 0 ltac:(ctn) F) (near_lt (fun _ => 0) (fun v => base3 F1 i1 v i2) F2 ltac:(ctn) D B))]. intros v [Hv1 Hv]. repeat split; auto.
  - unfold brk3. apply (ex_derive_comp exp); [auto_derive; auto|]. apply ex_derive_scal. apply (ex_derive_comp ln); auto. exists (/ base3 F1 i1 F2 i2). now apply is_derive_ln.
Qed.
Lemma near1 : locally i1 (fun v => ok3 F1 v F2 i2) /\ ex_derive (fun v => brk3 F1 v F2 i2) i1.
Proof.
  destruct K as (F & I1 & I2 & I & B). pose proof (pd1_nz i1 I1) as D1. pose proof (pd_ders i1 a1 b1) as DD. assert (D : ex_derive (fun v => base3 F1 v F2 i2) i1).
  { unfold base3. apply (ex_derive_div (fun v => F1 / F2 * (1 + v) / (1 + i2) * pd (1 + i2) a2 b2) (fun v => pd (1 + v) a1 b1)); auto. auto_derive; auto. }
  split.
  - eapply filter_imp; [|exact (near_and _ _ _ (near_ne (fun v => v) i1 (-1) ltac:(ctn) I1) (near_and _ _ _ (near_ne (fun v => v) i1 i2 ltac:(ctn) I) (near_lt (fun _ => 0) (fun v => base3 F1 v F2 i2) i1 ltac:(ctn) D B)))]. intros v (Hv1 & Hv2 & Hv). repeat split; auto.
  - unfold brk3. apply (ex_derive_comp exp); [auto_derive; auto|]. apply (ex_derive_mult (fun v => 1 / (i2 - v)) (fun v => ln (base3 F1 v F2 i2))). auto_derive. lra. apply (ex_derive_comp ln); auto. exists (/ base3 F1 i1 F2 i2). now apply is_derive_ln.
Qed.
Lemma near3 : locally i2 (fun v => ok3 F1 i1 F2 v) /\ ex_derive (fun v => brk3 F1 i1 F2 v) i2.
Proof.
  destruct K as (F & I1 & I2 & I & B). pose proof (pd1_nz i1 I1) as D1. pose proof (pd_ders i2 a2 b2) as DD. assert (D : ex_derive (fun v => base3 F1 i1 F2 v) i2).
  { unfold base3. apply (ex_derive_mult (fun v => F1 / F2 * (1 + i1) / (1 + v) * pd (1 + v) a2 b2) (fun v => / pd (1 + i1) a1 b1)); [|auto_derive; auto].
    apply (ex_derive_mult (fun v => F1 / F2 * (1 + i1) / (1 + v)) (fun v => pd (1 + v) a2 b2)); auto. auto_derive. lra. }
  split.
  - eapply filter_imp; [|exact (near_and _ _ _ (near_ne (fun v => v) i2 (-1) ltac:(ctn) I2) (near_and _ _ _ (near_ne (fun v => v) i2 i1 ltac:(ctn) (not_eq_sym I)) (near_lt (fun _ => 0) (fun v => base3 F1 i1 F2 v) i2 ltac:(ctn) D B)))]. intros v (Hv1 & Hv2 & Hv). repeat split; auto.
  - unfold brk3. apply (ex_derive_comp exp); [auto_derive; auto|]. apply (ex_derive_mult (fun v => 1 / (v - i1)) (fun v => ln (base3 F1 i1 F2 v))). auto_derive. lra. apply (ex_derive_comp ln); auto. exists (/ base3 F1 i1 F2 i2). now apply is_derive_ln.
Qed.
End Near.
End BPL3.

(** Proper limits; both indices different from -1 and from each other; the two power laws meet at a positive energy, which
    is not x. *)
Lemma BPL3_derivs : derivatives_ok 8 BPL3_dom BPL3_value BPL3_deriv.
Proof.
  apply derivatives_intro; intros t sc x i s Lt Ls Hi Hs Hd. destruct t as [|F1 [|i1 [|F2 [|i2 [|a1 [|b1 [|a2 [|b2 [|? ?]]]]]]]]]; try (simpl in Lt; discriminate Lt). clear Lt.
  destruct Hd as (Hi4 & Hx & Ha1 & Hb1 & H1 & Ha2 & Hb2 & H2 & F & I1 & I2 & I & B & E).
  change (0 < base3 a1 b1 a2 b2 F1 i1 F2 i2) in B. change (x <> brk3 a1 b1 a2 b2 F1 i1 F2 i2) in E.
  assert (K : ok3 a1 b1 a2 b2 F1 i1 F2 i2) by (repeat split; auto). pose proof (pd1_nz a1 b1 Ha1 Hb1 H1 i1 I1) as D1. pose proof (pd2_nz a2 b2 Ha2 Hb2 H2 i2 I2) as D2.
  pose proof (F1_nz _ _ _ _ _ _ _ _ K) as F0.
  destruct (near0 a1 b1 a2 b2 Ha1 Hb1 H1 _ _ _ _ K) as [N0 X0]. destruct (near1 a1 b1 a2 b2 Ha1 Hb1 H1 _ _ _ _ K) as [N1 X1].
  destruct (near2 a1 b1 a2 b2 Ha1 Hb1 H1 _ _ _ _ K) as [N2 X2]. destruct (near3 a1 b1 a2 b2 Ha1 Hb1 H1 _ _ _ _ K) as [N3 X3].
  assert (PX : 0 < brk3 a1 b1 a2 b2 F1 i1 F2 i2) by apply exp_pos.
  assert (VL : forall u1 j1 u2 j2, ok3 a1 b1 a2 b2 u1 j1 u2 j2 -> x < brk3 a1 b1 a2 b2 u1 j1 u2 j2 -> BPL3_value [u1; j1; u2; j2; a1; b1; a2; b2] x = Some (low3 a1 b1 x u1 j1 u2 j2)) by (intros; apply BPL3_low; auto).
  assert (VH : forall u1 j1 u2 j2, ok3 a1 b1 a2 b2 u1 j1 u2 j2 -> brk3 a1 b1 a2 b2 u1 j1 u2 j2 <= x -> BPL3_value [u1; j1; u2; j2; a1; b1; a2; b2] x = Some (high3 a2 b2 x u1 j1 u2 j2)) by (intros; apply BPL3_high; auto).
  pose proof (low_eq a1 b1 a2 b2 x) as EL. specialize (EL ltac:(auto) ltac:(auto) ltac:(auto) ltac:(auto) F1 i1 F2 i2 K).
  pose proof (high_eq a1 b1 a2 b2 x) as EH. specialize (EH ltac:(auto) ltac:(auto) ltac:(auto) ltac:(auto) ltac:(auto) ltac:(auto) ltac:(auto) F1 i1 F2 i2 K).
  assert (LNX : ln (x / brk3 a1 b1 a2 b2 F1 i1 F2 i2) = ln x - ln (brk3 a1 b1 a2 b2 F1 i1 F2 i2)) by (apply ln_div; auto).
  unfold BPL3_deriv. rewrite Hs. rewrite (x0_ok a1 b1 a2 b2) by auto. rewrite (n0_ok a1 b1) by auto. op1.
  set (X := brk3 a1 b1 a2 b2 F1 i1 F2 i2) in *. set (n0 := F1 * (1 + i1) * exp (i1 * ln X) / pd (1 + i1) a1 b1) in *.
  destruct (Rlt_dec x X) as [L|L].
  - destruct i as [|[|[|[|i]]]]; [| | | |lia]; rewrite ltd_t by exact L; unfold BPL3_dI; op1.
    + exists ((1 + i1) * exp (i1 * ln x) / pd (1 + i1) a1 b1). split.
      * f_equal. replace (exp (i1 * ln (x / X)) * n0) with (low3 a1 b1 x F1 i1 F2 i2) by (rewrite <- EL; ring). unfold low3. field. auto.
      * eapply (partial_intro _ _ _ F1 _ (fun v => low3 a1 b1 x v i1 F2 i2)); [reflexivity| |].
        -- eapply filter_imp; [|exact (near_and _ _ _ N0 (near_lt (fun _ => x) (fun v => brk3 a1 b1 a2 b2 v i1 F2 i2) F1 ltac:(ctn) X0 L))]. intros v [Hv1 Hv2]. apply VL; auto.
        -- unfold low3. auto_derive; auto. field. auto.
    + exists (low3 a1 b1 x F1 i1 F2 i2 * (1 / (1 + i1) + ln x - (exp ((1 + i1) * ln b1) * ln b1 - exp ((1 + i1) * ln a1) * ln a1) / pd (1 + i1) a1 b1)). split.
      * f_equal. rewrite LNX at 2. rewrite <- EL. unfold pd. ring.
      * eapply (partial_intro _ _ _ i1 _ (fun v => low3 a1 b1 x F1 v F2 i2)); [reflexivity| |].
        -- eapply filter_imp; [|exact (near_and _ _ _ N1 (near_lt (fun _ => x) (fun v => brk3 a1 b1 a2 b2 F1 v F2 i2) i1 ltac:(ctn) X1 L))]. intros v [Hv1 Hv2]. apply VL; auto.
        -- unfold low3, pd in *. auto_derive; auto. field. split; auto. lra.
    + exists 0. split; [f_equal; ring|]. eapply (partial_intro _ _ _ F2 _ (fun v => low3 a1 b1 x F1 i1 v i2)); [reflexivity| |].
      * eapply filter_imp; [|exact (near_and _ _ _ N2 (near_lt (fun _ => x) (fun v => brk3 a1 b1 a2 b2 F1 i1 v i2) F2 ltac:(ctn) X2 L))]. intros v [Hv1 Hv2]. apply VL; auto.
      * unfold low3. auto_derive; auto.
    + exists 0. split; [f_equal; ring|]. eapply (partial_intro _ _ _ i2 _ (fun v => low3 a1 b1 x F1 i1 F2 v)); [reflexivity| |].
      * eapply filter_imp; [|exact (near_and _ _ _ N3 (near_lt (fun _ => x) (fun v => brk3 a1 b1 a2 b2 F1 i1 F2 v) i2 ltac:(ctn) X3 L))]. intros v [Hv1 Hv2]. apply VL; auto.
      * unfold low3. auto_derive; auto.
  - assert (L' : X < x) by lra.
    destruct i as [|[|[|[|i]]]]; [| | | |lia]; rewrite ltd_f by lra; unfold BPL3_dI; op1.
    + exists 0. split; [f_equal; ring|]. eapply (partial_intro _ _ _ F1 _ (fun v => high3 a2 b2 x v i1 F2 i2)); [reflexivity| |].
      * eapply filter_imp; [|exact (near_and _ _ _ N0 (near_lt (fun v => brk3 a1 b1 a2 b2 v i1 F2 i2) (fun _ => x) F1 X0 ltac:(ctn) L'))]. intros v [Hv1 Hv2]. apply VH; [exact Hv1|left; exact Hv2].
      * unfold high3. auto_derive; auto.
    + exists 0. split; [f_equal; ring|]. eapply (partial_intro _ _ _ i1 _ (fun v => high3 a2 b2 x F1 v F2 i2)); [reflexivity| |].
      * eapply filter_imp; [|exact (near_and _ _ _ N1 (near_lt (fun v => brk3 a1 b1 a2 b2 F1 v F2 i2) (fun _ => x) i1 X1 ltac:(ctn) L'))]. intros v [Hv1 Hv2]. apply VH; [exact Hv1|left; exact Hv2].
      * unfold high3. auto_derive; auto.
    + exists ((1 + i2) * exp (i2 * ln x) / pd (1 + i2) a2 b2). split.
      * f_equal. replace (n0 / F2 * exp (i2 * ln (x / X))) with (high3 a2 b2 x F1 i1 F2 i2 / F2) by (rewrite <- EH; field; auto). unfold high3. field. auto.
      * eapply (partial_intro _ _ _ F2 _ (fun v => high3 a2 b2 x F1 i1 v i2)); [reflexivity| |].
        -- eapply filter_imp; [|exact (near_and _ _ _ N2 (near_lt (fun v => brk3 a1 b1 a2 b2 F1 i1 v i2) (fun _ => x) F2 X2 ltac:(ctn) L'))]. intros v [Hv1 Hv2]. apply VH; [exact Hv1|left; exact Hv2].
        -- unfold high3. auto_derive; auto. field. auto.
    + exists (high3 a2 b2 x F1 i1 F2 i2 * (1 / (1 + i2) + ln x - (exp ((1 + i2) * ln b2) * ln b2 - exp ((1 + i2) * ln a2) * ln a2) / pd (1 + i2) a2 b2)). split.
      * f_equal. rewrite LNX at 2. rewrite <- EH. unfold pd. ring.
      * eapply (partial_intro _ _ _ i2 _ (fun v => high3 a2 b2 x F1 i1 F2 v)); [reflexivity| |].
        -- eapply filter_imp; [|exact (near_and _ _ _ N3 (near_lt (fun v => brk3 a1 b1 a2 b2 F1 i1 F2 v) (fun _ => x) i2 X3 ltac:(ctn) L'))]. intros v [Hv1 Hv2]. apply VH; [exact Hv1|left; exact Hv2].
        -- unfold high3, pd in *. auto_derive; auto. field. split; auto. lra.
Qed.

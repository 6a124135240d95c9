(** Continuity (C37). *)
From Coq Require Import Reals Lra.
From Coquelicot Require Import Coquelicot.
From Verif Require Import Base DerivSpec SpecFn SpecDom SpecTac SpecPowModel SpecPow SpecExpModel SpecExp SpecBrkModel SpecBrk SpecBrk2 SpecBrk3 SpecListModel SpecList SpecPPL SpecIntSpec SpecRef.
Local Open Scope R_scope.

Lemma cont_intro (V : fvalue) t (f : R -> R) : (forall x, 0 < x -> V t x = Some (f x)) -> (forall x, 0 < x -> continuous f x) -> continuous_spectrum V t.
Proof. intros A B. exists f. intros x Hx. split; auto. apply continuity_pt_filterlim. now apply B. Qed.
Lemma cont_pt (f : R -> R) x : continuous f x -> continuity_pt f x.
Proof. apply continuity_pt_filterlim. Qed.
Lemma pieces_cont (f1 f2 : R -> R) b x : continuous f1 x -> continuous f2 x -> f1 b = f2 b -> continuous (fun y => if Rltd y b then f1 y else f2 y) x.
Proof.
  intros C1 C2 E. destruct (total_order_T x b) as [[L|L]|L].
  - apply (continuous_ext_loc _ f1); auto. eapply filter_imp; [|exact (near_lt (fun v => v) (fun _ => b) x ltac:(ctn) ltac:(ctn) L)].
    intros y Hy. simpl in Hy. now rewrite ltd_t.
  - subst x. apply (glue _ f1 f2); auto.
    + apply filter_forall. intros y. destruct (Rltd y b); auto.
    + rewrite ltd_f by lra. auto.
    + now rewrite ltd_f by lra.
  - apply (continuous_ext_loc _ f2); auto. eapply filter_imp; [|exact (near_lt (fun _ => b) (fun v => v) x ltac:(ctn) ltac:(ctn) L)].
    intros y Hy. simpl in Hy. rewrite ltd_f by lra. auto.
Qed.
Lemma der_cont (f : R -> R) x : ex_derive f x -> continuous f x.
Proof. apply (ex_derive_continuous (K := R_AbsRing) (V := R_NormedModule)). Qed.
Lemma pieces V t f1 f2 b : (forall x, 0 < x -> x < b -> V t x = Some (f1 x)) -> (forall x, 0 < x -> b <= x -> V t x = Some (f2 x)) ->
  (forall x, 0 < x -> ex_derive f1 x) -> (forall x, 0 < x -> ex_derive f2 x) -> f1 b = f2 b -> continuous_spectrum V t.
Proof.
  intros V1 V2 D1 D2 E. apply (cont_intro V t (fun y => if Rltd y b then f1 y else f2 y)).
  - intros x Hx. destruct (ltd_spec x b); auto. apply V2; auto. lra.
  - intros x Hx. apply pieces_cont; auto; apply der_cont; auto.
Qed.
(** For a break that is not positive there is only one piece. *)
Lemma one_piece V t f : (forall x, 0 < x -> V t x = Some (f x)) -> (forall x, 0 < x -> ex_derive f x) -> continuous_spectrum V t.
Proof. intros A B. apply (cont_intro V t f); auto. intros x Hx. apply der_cont. auto. Qed.

Lemma ExpCutoff_cont pref index scale eb p1 p2 p3 : 0 < scale -> 0 < eb -> p1 <> 0 -> continuous_spectrum ExpCutoff_value [pref; index; scale; eb; p1; p2; p3].
Proof.
  intros S E P. eapply (pieces _ _ _ _ eb).
  - intros x Hx L. apply ExpCutoff_low; auto.
  - intros x Hx L. apply ExpCutoff_high; auto.
  - intros x Hx. auto_derive. repeat split; auto; try lra. pos.
  - intros x Hx. auto_derive. repeat split; auto; try lra; pos.
  - simpl. replace (eb / eb) with 1 by (field; lra). rewrite ln_1. replace ((eb - eb) / p1) with 0 by (field; auto). rewrite !Rmult_0_r, !Rplus_0_r, Ropp_0, exp_0. ring.
Qed.
Lemma Band_cont n0 al be ep sc : 0 < sc -> 0 < ep -> continuous_spectrum Band_value [n0; al; be; ep; sc].
Proof.
  intros S E. destruct (Rle_lt_dec al be) as [A|A].
  - eapply one_piece.
    + intros x Hx. apply Band_flat; auto.
    + intros x Hx. auto_derive. repeat split; auto; try lra. pos.
  - assert (Q : forall x, 0 < x -> (x < ep * (al - be) <-> x / sc < ep / sc * (al - be))).
    { intros x Hx. split; intros H.
      - replace (ep / sc * (al - be)) with (ep * (al - be) / sc) by (field; lra). apply Rmult_lt_compat_r; auto. now apply Rinv_0_lt_compat.
      - apply (Rmult_lt_reg_r (/ sc)). now apply Rinv_0_lt_compat. replace (ep * (al - be) * / sc) with (ep / sc * (al - be)) by (field; lra). exact H. }
    eapply (pieces _ _ _ _ (ep * (al - be))).
    + intros x Hx L. apply Band_low; auto. apply Q; auto.
    + intros x Hx L. apply Band_high; auto. apply Rnot_lt_le. intros H. apply Q in H; auto. lra.
    + intros x Hx. auto_derive. repeat split; auto; try lra; try pos; nz.
    + intros x Hx. auto_derive. repeat split; auto; try lra. pos.
    + simpl. replace (ep * (al - be) / sc) with (ep / sc * (al - be)) by (field; lra). set (l := ln (ep / sc * (al - be))).
      replace (- (ep / sc * (al - be)) / (ep / sc)) with (be - al) by (field; lra). replace (al * l) with (be * l + (al - be) * l) by ring. rewrite exp_plus. ring.
Qed.
Lemma broken_cont V t K i1 i2 x0 : 0 < x0 -> (forall x, 0 < x -> x < x0 -> V t x = Some (K * exp (i1 * ln (x / x0)))) ->
  (forall x, 0 < x -> x0 <= x -> V t x = Some (K * exp (i2 * ln (x / x0)))) -> continuous_spectrum V t.
Proof.
  intros P A B. apply (pieces _ _ (fun x => K * exp (i1 * ln (x / x0))) (fun x => K * exp (i2 * ln (x / x0))) x0); auto.
  - intros x Hx. auto_derive. repeat split; auto; try lra. pos.
  - intros x Hx. auto_derive. repeat split; auto; try lra. pos.
  - simpl. replace (x0 / x0) with 1 by (field; lra). rewrite ln_1, !Rmult_0_r. reflexivity.
Qed.
Lemma BPL2_cont NN i1 i2 x0 x1 x2 : 0 < x0 -> 0 < x1 -> x1 < x2 -> (x1 <= x0 -> i1 <> -1) -> (x0 <= x2 -> i2 <> -1) -> continuous_spectrum BPL2_value [NN; i1; i2; x0; x1; x2].
Proof.
  intros P0 P1 L I1 I2. destruct (Rlt_le_dec x0 x1) as [A|A]; [|destruct (Rlt_le_dec x2 x0) as [B|B]].
  - eapply (broken_cont _ _ _ _ _ x0); auto; intros x Hx Q; [apply BPL2_A1|apply BPL2_A2]; auto; apply I2; lra.
  - eapply (broken_cont _ _ _ _ _ x0); auto; intros x Hx Q; [apply BPL2_B1|apply BPL2_B2]; auto; apply I1; lra.
  - eapply (broken_cont _ _ _ _ _ x0); auto; intros x Hx Q; [apply BPL2_C1|apply BPL2_C2]; auto.
Qed.
Definition K3 (F1 i1 F2 i2 a1 b1 a2 b2 : R) : R := F1 * (1 + i1) * exp (i1 * ln (BPL3_break F1 i1 F2 i2 a1 b1 a2 b2)) / pd (1 + i1) a1 b1.
Lemma BPL3_below F1 i1 F2 i2 a1 b1 a2 b2 x : BPL3_admissible F1 i1 F2 i2 a1 b1 a2 b2 -> 0 < x -> x < BPL3_break F1 i1 F2 i2 a1 b1 a2 b2 ->
  BPL3_value [F1; i1; F2; i2; a1; b1; a2; b2] x = Some (K3 F1 i1 F2 i2 a1 b1 a2 b2 * exp (i1 * ln (x / BPL3_break F1 i1 F2 i2 a1 b1 a2 b2))).
Proof.
  intros (Ha1 & Hb1 & H1 & Ha2 & Hb2 & H2 & F & I1 & I2 & I & B) Hx L. assert (K : ok3 a1 b1 a2 b2 F1 i1 F2 i2) by (repeat split; auto).
  rewrite BPL3_low by auto. apply (f_equal Some). symmetry. apply low_eq; auto.
Qed.
Lemma BPL3_above F1 i1 F2 i2 a1 b1 a2 b2 x : BPL3_admissible F1 i1 F2 i2 a1 b1 a2 b2 -> 0 < x -> BPL3_break F1 i1 F2 i2 a1 b1 a2 b2 <= x ->
  BPL3_value [F1; i1; F2; i2; a1; b1; a2; b2] x = Some (K3 F1 i1 F2 i2 a1 b1 a2 b2 * exp (i2 * ln (x / BPL3_break F1 i1 F2 i2 a1 b1 a2 b2))).
Proof.
  intros (Ha1 & Hb1 & H1 & Ha2 & Hb2 & H2 & F & I1 & I2 & I & B) Hx L. assert (K : ok3 a1 b1 a2 b2 F1 i1 F2 i2) by (repeat split; auto).
  rewrite BPL3_high by auto. apply (f_equal Some). symmetry. apply high_eq; auto.
Qed.
Lemma BPL3_cont F1 i1 F2 i2 a1 b1 a2 b2 : BPL3_admissible F1 i1 F2 i2 a1 b1 a2 b2 -> continuous_spectrum BPL3_value [F1; i1; F2; i2; a1; b1; a2; b2].
Proof.
  intros A. eapply (broken_cont _ _ _ _ _ (BPL3_break F1 i1 F2 i2 a1 b1 a2 b2)).
  - apply exp_pos.
  - intros x Hx L. apply BPL3_below; auto.
  - intros x Hx L. apply BPL3_above; auto.
Qed.
(** A jump: the value at [x] differs from the limit of the values on one side. *)
Lemma jump_intro (V : fvalue) t x v f : V t x = Some v -> continuous f x -> f x <> v ->
  (forall del, 0 < del -> exists y, Rabs (y - x) < del /\ V t y = Some (f y)) -> jump V t x.
Proof.
  intros A C N L. assert (E : 0 < Rabs (f x - v)) by (apply Rabs_pos_lt; lra).
  exists v, (Rabs (f x - v) / 2). split; auto. split; [lra|]. intros del Hd.
  apply continuity_pt_filterlim in C. destruct (C (Rabs (f x - v) / 2) ltac:(lra)) as (al & Ha & Q). simpl in Q. unfold R_dist in Q.
  destruct (L (Rmin del al)) as (y & Y1 & Y2). { apply Rmin_pos; lra. }
  exists y, (f y). split; [eapply Rlt_le_trans; [exact Y1|apply Rmin_l]|]. split; auto.
  assert (D : Rabs (f y - f x) < Rabs (f x - v) / 2).
  { destruct (Req_EM_T x y) as [->|Ne]. { replace (f y - f y) with 0 by ring. rewrite Rabs_R0. lra. }
    apply Q. split. split; [exact I|exact Ne]. eapply Rlt_le_trans; [exact Y1|apply Rmin_r]. }
  replace (f y - v) with ((f x - v) - (f x - f y)) by ring. pose proof (Rabs_triang_inv (f x - v) (f x - f y)) as T. rewrite (Rabs_minus_sym (f x) (f y)) in T. lra.
Qed.
Lemma BPLExp_at pref i1 i2 brk eabs p1 x : brk <> 0 -> x = brk \/ x = eabs -> BPLExp_value [pref; i1; i2; brk; eabs; p1] x = Some 0.
Proof.
  intros N E. unfold BPLExp_value. rewrite rdiv_ok by auto. destruct E as [-> | ->].
  - rewrite !(ltd_f brk brk) by lra. simpl. reflexivity.
  - rewrite !(ltd_f eabs eabs) by lra. rewrite !andb_false_r. reflexivity.
Qed.
Lemma BPLExp_jump pref i1 i2 brk eabs p1 : pref <> 0 -> 0 < brk -> brk <> eabs -> p1 <> 0 -> jump BPLExp_value [pref; i1; i2; brk; eabs; p1] brk.
Proof.
  intros P B N P1. assert (L1 : ln (brk / brk) = 0) by (replace (brk / brk) with 1 by (field; lra); apply ln_1).
  destruct (Rlt_le_dec brk eabs) as [L|L].
  - apply (jump_intro _ _ _ 0 (fun x => pref * exp (i1 * ln (x / brk)))).
    + apply BPLExp_at; auto; lra.
    + apply der_cont. auto_derive. repeat split; auto; try lra. pos.
    + rewrite L1, Rmult_0_r, exp_0. lra.
    + intros del Hd. pose (d := Rmin (del / 2) (brk / 2)). assert (0 < d) by (apply Rmin_pos; lra). pose proof (Rmin_l (del / 2) (brk / 2)) as M1. pose proof (Rmin_r (del / 2) (brk / 2)) as M2. fold d in M1, M2.
      exists (brk - d). split. { replace (brk - d - brk) with (- d) by ring. rewrite Rabs_Ropp, Rabs_right; lra. } apply BPLExp_1; lra.
  - apply (jump_intro _ _ _ 0 (fun x => pref * exp (i2 * ln (x / brk)) * exp (- ((x - eabs) / p1)))).
    + apply BPLExp_at; auto; lra.
    + apply der_cont. auto_derive. repeat split; auto; try lra. pos.
    + rewrite L1, Rmult_0_r, exp_0. apply Rmult_integral_contrapositive_currified; [lra|]. apply Rgt_not_eq, exp_pos.
    + intros del Hd. exists (brk + del / 2). split. { replace (brk + del / 2 - brk) with (del / 2) by ring. rewrite Rabs_right; lra. } apply BPLExp_4; lra.
Qed.
Lemma BPLExp_cont pref i1 i2 brk eabs p1 : 0 < brk -> p1 <> 0 ->
  exists f, forall x, 0 < x -> x <> brk -> x <> eabs -> BPLExp_value [pref; i1; i2; brk; eabs; p1] x = Some (f x) /\ continuity_pt f x.
Proof.
  intros B P.
  exists (fun x => if Rltd x brk then (if Rltd x eabs then pref * exp (i1 * ln (x / brk)) else pref * exp (i1 * ln (x / brk)) * exp (- ((x - eabs) / p1)))
                   else (if Rltd x eabs then pref * exp (i2 * ln (x / brk)) else pref * exp (i2 * ln (x / brk)) * exp (- ((x - eabs) / p1)))).
  intros x Hx Nb Ne. split.
  - destruct (ltd_spec x brk), (ltd_spec x eabs); [apply BPLExp_1|apply BPLExp_3|apply BPLExp_2|apply BPLExp_4]; auto; lra.
  - apply cont_pt.
    pose proof (fun H => near_lt (fun v => v) (fun _ => brk) x ltac:(ctn) ltac:(ctn) H) as LB. pose proof (fun H => near_lt (fun _ => brk) (fun v => v) x ltac:(ctn) ltac:(ctn) H) as GB.
    pose proof (fun H => near_lt (fun v => v) (fun _ => eabs) x ltac:(ctn) ltac:(ctn) H) as LE. pose proof (fun H => near_lt (fun _ => eabs) (fun v => v) x ltac:(ctn) ltac:(ctn) H) as GE.
    destruct (total_order_T x brk) as [[A|A]|A]; [|elim Nb; exact A|]; destruct (total_order_T x eabs) as [[C|C]|C]; try (elim Ne; exact C).
    + apply (continuous_ext_loc _ (fun x => pref * exp (i1 * ln (x / brk)))); [|apply der_cont; auto_derive; repeat split; auto; try lra; pos].
      eapply filter_imp; [|exact (near_and _ _ _ (LB A) (LE C))]. intros y [Y1 Y2]. simpl in Y1, Y2. rewrite !ltd_t by auto. reflexivity.
    + apply (continuous_ext_loc _ (fun x => pref * exp (i1 * ln (x / brk)) * exp (- ((x - eabs) / p1)))); [|apply der_cont; auto_derive; repeat split; auto; try lra; pos].
      eapply filter_imp; [|exact (near_and _ _ _ (LB A) (GE C))]. intros y [Y1 Y2]. simpl in Y1, Y2. rewrite ltd_t by auto. rewrite ltd_f by lra. reflexivity.
    + apply (continuous_ext_loc _ (fun x => pref * exp (i2 * ln (x / brk)))); [|apply der_cont; auto_derive; repeat split; auto; try lra; pos].
      eapply filter_imp; [|exact (near_and _ _ _ (GB A) (LE C))]. intros y [Y1 Y2]. simpl in Y1, Y2. rewrite (ltd_f y brk) by lra. rewrite ltd_t by auto. reflexivity.
    + apply (continuous_ext_loc _ (fun x => pref * exp (i2 * ln (x / brk)) * exp (- ((x - eabs) / p1)))); [|apply der_cont; auto_derive; repeat split; auto; try lra; pos].
      eapply filter_imp; [|exact (near_and _ _ _ (GB A) (GE C))]. intros y [Y1 Y2]. simpl in Y1, Y2. rewrite !ltd_f by lra. reflexivity.
Qed.
(** exp is above its Taylor polynomials. *)
Lemma exp_above4 x : 0 < x -> 1 + x + x * x / 2 + x * x * x / 6 + x * x * x * x / 24 < exp x.
Proof.
  intros Hx.
  assert (I : forall (f f' : R -> R), f 0 = 0 -> (forall y, is_derive f y (f' y)) -> (forall y, 0 <= y -> 0 <= f' y) -> (forall y, 0 < y -> 0 < f' y) ->
    (forall y, 0 <= y -> 0 <= f y) /\ (forall y, 0 < y -> 0 < f y)).
  { intros f f' Z D N P. assert (forall y, 0 < y -> 0 < f y).
    { intros y Hy. assert (DD : derivable f) by (intros z; exists (f' z); apply is_derive_Reals, D).
      destruct (MVT_cor1 f 0 y DD Hy) as (c & E & C1 & C2). rewrite Z in E. assert (Q : derive_pt f c (DD c) = f' c) by (apply derive_pt_eq_0, is_derive_Reals, D).
      rewrite Q in E. pose proof (Rmult_lt_0_compat _ _ (P c C1) Hy). lra. }
    split; auto. intros y [Hy|<-]; [left; auto|rewrite Z; lra]. }
  assert (A1 := I (fun y => exp y - 1) exp). assert (A2 := I (fun y => exp y - 1 - y) (fun y => exp y - 1)).
  assert (A3 := I (fun y => exp y - 1 - y - y * y / 2) (fun y => exp y - 1 - y)).
  assert (A4 := I (fun y => exp y - 1 - y - y * y / 2 - y * y * y / 6) (fun y => exp y - 1 - y - y * y / 2)).
  assert (A5 := I (fun y => exp y - 1 - y - y * y / 2 - y * y * y / 6 - y * y * y * y / 24) (fun y => exp y - 1 - y - y * y / 2 - y * y * y / 6)).
  destruct A1 as [A1 B1]; [rewrite exp_0; lra|intros; auto_derive; auto; lra|intros; left; apply exp_pos|intros; apply exp_pos|].
  destruct A2 as [A2 B2]; [rewrite exp_0; lra|intros; auto_derive; auto; lra|auto|auto|].
  destruct A3 as [A3 B3]; [rewrite exp_0; lra|intros; auto_derive; auto; field|auto|auto|].
  destruct A4 as [A4 B4]; [rewrite exp_0; lra|intros; auto_derive; auto; field|auto|auto|].
  destruct A5 as [A5 B5]; [rewrite exp_0; lra|intros; auto_derive; auto; field|auto|auto|].
  specialize (B5 x Hx). simpl in B5. lra.
Qed.
(** PowerLawSuperExpCutoff4: Prefactor 1, IndexS 0, Scale 1, ExpfactorS 1, Index2 1; at ln x = 1/100 the formula changes. *)
Lemma PLSuper4_jump : jump PLSuper4_value [1; 0; 1; 1; 1] (exp (1 / 100)).
Proof.
  pose proof (exp_above4 (1 / 100) ltac:(lra)) as E. pose proof (exp_pos (1 / 100)) as P. pose proof max_exp_pos as M.
  assert (L : ln (exp (1 / 100) / 1) = 1 / 100) by (replace (exp (1 / 100) / 1) with (exp (1 / 100)) by lra; apply ln_exp).
  assert (LI : forall y, 0 < y -> y < exp (1 / 100) -> ln (y / 1) < 1 / 100).
  { intros y Hy Hl. replace (y / 1) with y by lra. rewrite <- (ln_exp (1 / 100)). apply ln_increasing; auto. }
  apply (jump_intro _ _ _ (exp (1 / 100 + (1 - exp (1 / 100)))) (fun x => exp (ln (x / 1) * (0 - 1 * ln (x / 1) / 2 * (1 + 1 * ln (x / 1) / 3 * (1 + 1 * ln (x / 1) / 4)))))).
  - unfold PLSuper4_value. op. rewrite L. rewrite ltd_f by (rewrite Rmult_1_l, Rabs_right; lra). op.
    replace (1 * (1 / 100)) with (1 / 100) by ring. replace ((0 + 1 / 1) * (1 / 100) + 1 / 1 / 1 * (1 - exp (1 / 100))) with (1 / 100 + (1 - exp (1 / 100))) by field.
    rewrite Rmin_left by lra. apply (f_equal Some). ring.
  - apply der_cont. auto_derive. repeat split; auto; lra.
  - rewrite L. intros Q. apply exp_inv in Q. lra.
  - intros del Hd. pose (d := Rmin (del / 2) ((exp (1 / 100) - 1) / 2)). pose proof (exp_ineq1 (1 / 100) ltac:(lra)).
    assert (0 < d) by (apply Rmin_pos; lra). pose proof (Rmin_l (del / 2) ((exp (1 / 100) - 1) / 2)) as M1. pose proof (Rmin_r (del / 2) ((exp (1 / 100) - 1) / 2)) as M2. fold d in M1, M2.
    exists (exp (1 / 100) - d). split. { replace (exp (1 / 100) - d - exp (1 / 100)) with (- d) by ring. rewrite Rabs_Ropp, Rabs_right; lra. }
    rewrite PLSuper4_small; try lra. { apply (f_equal Some). ring. }
    assert (ln (exp (1 / 100) - d) > 0). { rewrite <- ln_1. apply ln_increasing; lra. }
    specialize (LI (exp (1 / 100) - d) ltac:(lra) ltac:(lra)). replace ((exp (1 / 100) - d) / 1) with (exp (1 / 100) - d) in * by lra. lra.
Qed.

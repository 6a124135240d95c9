(** The exponential cutoff family: derivatives (proofs of C34). *)
From Coq Require Import Reals Lra.
From Coquelicot Require Import Coquelicot.
From Verif Require Import Base DerivSpec SpecFn SpecDom SpecTac SpecExpModel.
Local Open Scope R_scope.

Lemma ltd_t a b : a < b -> Rltd a b = true.
Proof. intros H. unfold Rltd. destruct (Rlt_dec a b); [reflexivity|contradiction]. Qed.
Lemma ltd_f a b : b <= a -> Rltd a b = false.
Proof. intros H. unfold Rltd. destruct (Rlt_dec a b); [lra|reflexivity]. Qed.

Lemma PLSuper_ok pref i1 scale cut i2 x : 0 < x -> 0 < scale -> 0 < cut ->
  PLSuper_value [pref; i1; scale; cut; i2] x = Some (pref * exp (i1 * ln (x / scale)) * exp (- exp (i2 * ln (x / cut)))).
Proof. intros Hx HE HC. unfold PLSuper_value. op. reflexivity. Qed.
Lemma PLSuper_derivs : derivatives_ok 5 PLSuper_dom PLSuper_value PLSuper_deriv.
Proof.
  start. destruct Hd as (Hx & HE & HC & HP). pose proof (near_pos _ HE) as NE. pose proof (near_pos _ HC) as NC.
  destruct i as [|[|[|[|[|i]]]]]; [specialize (HP eq_refl)| | | | |lia]; param PLSuper_ok PLSuper_deriv.
Qed.

Lemma PLSuper2_ok pref i1 scale ef i2 x : 0 < x -> 0 < scale ->
  PLSuper2_value [pref; i1; scale; ef; i2] x = Some (pref * exp (i1 * ln (x / scale)) * exp (Rmin (- ef * exp (i2 * ln x)) max_exp)).
Proof. intros Hx HE. unfold PLSuper2_value. op. reflexivity. Qed.
Lemma PLSuper2_ok' pref i1 scale ef i2 x : 0 < x -> 0 < scale -> - ef * exp (i2 * ln x) < max_exp ->
  PLSuper2_value [pref; i1; scale; ef; i2] x = Some (pref * exp (i1 * ln (x / scale)) * exp (- ef * exp (i2 * ln x))).
Proof. intros Hx HE HM. rewrite PLSuper2_ok, Rmin_left by lra. reflexivity. Qed.
Lemma PLSuper2_derivs : derivatives_ok 5 PLSuper2_dom PLSuper2_value PLSuper2_deriv.
Proof.
  start. destruct Hd as (Hx & HE & HP & HM). unfold Rpower in HM.
  destruct i as [|[|[|[|[|i]]]]]; [specialize (HP eq_refl)| | | | |lia].
  - param PLSuper2_ok PLSuper2_deriv.
  - param PLSuper2_ok PLSuper2_deriv.
  - pose proof (near_pos _ HE) as NE. param PLSuper2_ok PLSuper2_deriv.
  - specialize (HM ltac:(lia)). pose proof (near_lt (fun v => - v * exp (r3 * ln x)) (fun _ => max_exp) r2 ltac:(auto_derive; auto) ltac:(auto_derive; auto) HM) as NE. param PLSuper2_ok' PLSuper2_deriv.
  - specialize (HM ltac:(lia)). pose proof (near_lt (fun v => - r2 * exp (v * ln x)) (fun _ => max_exp) r3 ltac:(auto_derive; auto) ltac:(auto_derive; auto) HM) as NE. param PLSuper2_ok' PLSuper2_deriv.
Qed.

Lemma PLSuper3_ok pref iS scale ef i2 x : 0 < x -> 0 < scale ->
  PLSuper3_value [pref; iS; scale; ef; i2] x = Some (pref * exp (Rmin ((iS + ef * i2) * ln (x / scale) + ef * (1 - exp (i2 * ln (x / scale)))) max_exp)).
Proof. intros Hx HE. unfold PLSuper3_value. op. reflexivity. Qed.
Lemma PLSuper3_ok' pref iS scale ef i2 x : 0 < x -> 0 < scale -> (iS + ef * i2) * ln (x / scale) + ef * (1 - exp (i2 * ln (x / scale))) < max_exp ->
  PLSuper3_value [pref; iS; scale; ef; i2] x = Some (pref * exp ((iS + ef * i2) * ln (x / scale) + ef * (1 - exp (i2 * ln (x / scale))))).
Proof. intros Hx HE HM. rewrite PLSuper3_ok, Rmin_left by lra. reflexivity. Qed.
Ltac ctn := auto_derive; solve [auto | side].
Lemma PLSuper3_derivs : derivatives_ok 5 PLSuper3_dom PLSuper3_value PLSuper3_deriv.
Proof.
  start. destruct Hd as (Hx & HE & HP & HM). unfold Rpower in HM.
  destruct i as [|[|[|[|[|i]]]]]; [specialize (HP eq_refl)|specialize (HM ltac:(lia))..|lia].
  - param PLSuper3_ok PLSuper3_deriv.
  - pose proof (near_lt (fun v => (v + r2 * r3) * ln (x / r1) + r2 * (1 - exp (r3 * ln (x / r1)))) (fun _ => max_exp) r0 ltac:(ctn) ltac:(ctn) HM) as NE. param PLSuper3_ok' PLSuper3_deriv.
  - pose proof (near_and _ _ _ (near_pos _ HE) (near_lt (fun v => (r0 + r2 * r3) * ln (x / v) + r2 * (1 - exp (r3 * ln (x / v)))) (fun _ => max_exp) r1 ltac:(ctn) ltac:(ctn) HM)) as NE. param PLSuper3_ok' PLSuper3_deriv.
  - pose proof (near_lt (fun v => (r0 + v * r3) * ln (x / r1) + v * (1 - exp (r3 * ln (x / r1)))) (fun _ => max_exp) r2 ltac:(ctn) ltac:(ctn) HM) as NE. param PLSuper3_ok' PLSuper3_deriv.
  - pose proof (near_lt (fun v => (r0 + r2 * v) * ln (x / r1) + r2 * (1 - exp (v * ln (x / r1)))) (fun _ => max_exp) r3 ltac:(ctn) ltac:(ctn) HM) as NE. param PLSuper3_ok' PLSuper3_deriv.
Qed.

Definition e4 (iS ef i2 y : R) : R := (iS + ef / i2) * y + ef / i2 / i2 * (1 - exp (i2 * y)).
Lemma PLSuper4_small pref iS scale ef i2 x : 0 < x -> 0 < scale -> -(1/100) < i2 * ln (x / scale) /\ i2 * ln (x / scale) < 1/100 ->
  PLSuper4_value [pref; iS; scale; ef; i2] x = Some (pref * exp (ln (x / scale) * (iS - ef * ln (x / scale) / 2 * (1 + i2 * ln (x / scale) / 3 * (1 + i2 * ln (x / scale) / 4))))).
Proof. intros Hx HE HY. unfold PLSuper4_value. op. rewrite ltd_t. reflexivity. apply Rabs_def1; lra. Qed.
Lemma i2_nz i2 y : 1/100 <= Rabs (i2 * y) -> i2 <> 0.
Proof. intros H ->. rewrite Rmult_0_l, Rabs_R0 in H. lra. Qed.
Lemma PLSuper4_big pref iS scale ef i2 x : 0 < x -> 0 < scale -> 1/100 <= Rabs (i2 * ln (x / scale)) ->
  PLSuper4_value [pref; iS; scale; ef; i2] x = Some (pref * exp (Rmin (e4 iS ef i2 (ln (x / scale))) max_exp)).
Proof. intros Hx HE HY. pose proof (i2_nz _ _ HY) as Z. unfold PLSuper4_value. op. rewrite ltd_f by exact HY. op. reflexivity. Qed.
Lemma PLSuper4_big' pref iS scale ef i2 x : 0 < x -> 0 < scale -> 1/100 <= Rabs (i2 * ln (x / scale)) -> e4 iS ef i2 (ln (x / scale)) < max_exp ->
  PLSuper4_value [pref; iS; scale; ef; i2] x = Some (pref * exp (e4 iS ef i2 (ln (x / scale)))).
Proof. intros Hx HE HY HM. rewrite PLSuper4_big by auto. rewrite Rmin_left by lra. reflexivity. Qed.
Lemma PLSuper4_big'' pref iS scale ef i2 x : 0 < x -> 0 < scale -> 1/100 <= Rabs (i2 * ln (x / scale)) -> e4 iS ef i2 (ln (x / scale)) < max_exp ->
  PLSuper4_value [pref; iS; scale; ef; i2] x = Some (pref * exp ((iS + ef / i2) * ln (x / scale) + ef / i2 / i2 * (1 - exp (i2 * ln (x / scale))))).
Proof. exact (PLSuper4_big' pref iS scale ef i2 x). Qed.
Lemma abs_big a : 1/100 < Rabs a -> a < - (1/100) \/ 1/100 < a.
Proof. intros H. unfold Rabs in H. destruct (Rcase_abs a); lra. Qed.
Lemma abs_big' a : a < - (1/100) \/ 1/100 < a -> 1/100 <= Rabs a.
Proof. intros H. unfold Rabs. destruct (Rcase_abs a); lra. Qed.
Lemma near_big g v0 : ex_derive g v0 -> 1/100 < Rabs (g v0) -> locally v0 (fun v => 1/100 <= Rabs (g v)).
Proof.
  intros D H. apply abs_big in H. destruct H as [H|H].
  - eapply filter_imp; [|exact (near_lt g (fun _ => - (1/100)) v0 D ltac:(ctn) H)]. intros v Hv. simpl in Hv. apply abs_big'. auto.
  - eapply filter_imp; [|exact (near_lt (fun _ => 1/100) g v0 ltac:(ctn) D H)]. intros v Hv. simpl in Hv. apply abs_big'. auto.
Qed.
Ltac big4 HY HM := unfold PLSuper4_deriv; match goal with H : nth_error _ _ = Some _ |- _ => rewrite ?H end; rewrite PLSuper4_big' by (auto; lra); op; rewrite ?ltd_f by exact HY; op; unfold e4, Rdiv, Rminus; f_equal; try (field; try side).
Ltac small4 HS := unfold PLSuper4_deriv; match goal with H : nth_error _ _ = Some _ |- _ => rewrite ?H end; rewrite PLSuper4_small by (auto; lra); op; rewrite ?ltd_t by exact HS; op; unfold Rdiv, Rminus; f_equal; try (field; try side).
Lemma PLSuper4_derivs : derivatives_ok 5 PLSuper4_dom PLSuper4_value PLSuper4_deriv.
Proof.
  start. destruct Hd as (Hx & HE & HP & HB & HM). fold (e4 r0 r2 r3 (ln (x / r1))) in HM. pose proof (near_pos _ HE) as NE0.
  destruct (Rlt_dec (Rabs (r3 * ln (x / r1))) (1/100)) as [HS|HY].
  - clear HM HB. pose proof (Rabs_def2 _ _ HS) as HS2. assert (HS3 : -(1/100) < r3 * ln (x / r1) /\ r3 * ln (x / r1) < 1/100) by lra.
    assert (N1 : locally r1 (fun v => -(1/100) < r3 * ln (x / v) /\ r3 * ln (x / v) < 1/100)) by (apply filter_and; [apply (near_lt (fun _ => - (1/100)) (fun v => r3 * ln (x / v)))|apply (near_lt (fun v => r3 * ln (x / v)) (fun _ => 1/100))]; solve [ctn | lra]).
    assert (N3 : locally r3 (fun v => -(1/100) < v * ln (x / r1) /\ v * ln (x / r1) < 1/100)) by (apply filter_and; [apply (near_lt (fun _ => - (1/100)) (fun v => v * ln (x / r1)))|apply (near_lt (fun v => v * ln (x / r1)) (fun _ => 1/100))]; solve [ctn | lra]).
    pose proof (near_and _ _ _ NE0 N1) as N1'. clear N1 NE0.
    destruct i as [|[|[|[|[|i]]]]]; [specialize (HP eq_refl)| | | | |lia]; apply ex_swap; eexists; (split; [eapply partial_intro; [reflexivity| closed PLSuper4_small | auto_derive; [try side|reflexivity]]|small4 HS]).
  - assert (HY' : 1/100 <= Rabs (r3 * ln (x / r1))) by lra. clear HY. pose proof (i2_nz _ _ HY') as Z.
    destruct i as [|[|[|[|[|i]]]]]; [specialize (HP eq_refl)|specialize (HM ltac:(lia) HY')..|lia]; apply ex_swap; eexists.
    + split; [eapply partial_intro; [reflexivity| closed PLSuper4_big | auto_derive; [try side|reflexivity]]|].
      unfold PLSuper4_deriv. rewrite Hs. rewrite PLSuper4_big by auto. op. f_equal. field. auto.
    + split; [eapply partial_intro; [reflexivity| |]|].
      * eapply filter_imp; [|exact (near_lt (fun v => e4 v r2 r3 (ln (x / r1))) (fun _ => max_exp) r0 ltac:(unfold e4; ctn) ltac:(ctn) HM)]. intros v Hv. cbn [upd]. apply PLSuper4_big''; simpl in *; auto.
      * auto_derive; [auto|reflexivity].
      * big4 HY' HM.
    + assert (HB' : 1/100 < Rabs (r3 * ln (x / r1))) by (pose proof (HB ltac:(auto)); lra).
      split; [eapply partial_intro; [reflexivity| |]|].
      * eapply filter_imp; [|apply (near_and _ _ _ NE0 (near_and _ _ _ (near_big (fun v => r3 * ln (x / v)) r1 ltac:(ctn) HB') (near_lt (fun v => e4 r0 r2 r3 (ln (x / v))) (fun _ => max_exp) r1 ltac:(unfold e4; ctn) ltac:(ctn) HM)))].
        intros v (Hv1 & Hv2 & Hv3). cbn [upd]. apply PLSuper4_big''; simpl in *; auto.
      * auto_derive; [side|reflexivity].
      * big4 HY' HM.
    + split; [eapply partial_intro; [reflexivity| |]|].
      * eapply filter_imp; [|exact (near_lt (fun v => e4 r0 v r3 (ln (x / r1))) (fun _ => max_exp) r2 ltac:(unfold e4; ctn) ltac:(ctn) HM)]. intros v Hv. cbn [upd]. apply PLSuper4_big''; simpl in *; auto.
      * auto_derive; [auto|reflexivity].
      * big4 HY' HM.
    + assert (HB' : 1/100 < Rabs (r3 * ln (x / r1))) by (pose proof (HB ltac:(auto)); lra).
      split; [eapply partial_intro; [reflexivity| |]|].
      * eapply filter_imp; [|apply (near_and _ _ _ (near_big (fun v => v * ln (x / r1)) r3 ltac:(ctn) HB') (near_lt (fun v => e4 r0 r2 v (ln (x / r1))) (fun _ => max_exp) r3 ltac:(unfold e4; ctn) ltac:(ctn) HM))].
        intros v (Hv2 & Hv3). cbn [upd]. apply PLSuper4_big''; simpl in *; auto.
      * auto_derive; [side|reflexivity].
      * big4 HY' HM.
Qed.

Lemma ExpCutoff_low pref index scale eb p1 p2 p3 x : 0 < x -> 0 < scale -> x < eb ->
  ExpCutoff_value [pref; index; scale; eb; p1; p2; p3] x = Some (pref * exp (index * ln (x / scale))).
Proof. intros Hx HE HB. unfold ExpCutoff_value. op. rewrite ltd_t by auto. reflexivity. Qed.
Lemma ExpCutoff_high pref index scale eb p1 p2 p3 x : 0 < x -> 0 < scale -> 0 < eb -> eb <= x -> p1 <> 0 ->
  ExpCutoff_value [pref; index; scale; eb; p1; p2; p3] x =
  Some (pref * exp (index * ln (x / scale)) * exp (- ((x - eb) / p1 + p2 * ln (x / eb) + p3 * ln (x / eb) * ln (x / eb)))).
Proof. intros Hx HE H0 HB HP. unfold ExpCutoff_value. op. rewrite ltd_f by auto. op. reflexivity. Qed.
Ltac cfin L := unfold ExpCutoff_deriv; match goal with H : nth_error _ _ = Some _ |- _ => rewrite ?H end; rewrite L by (auto; lra); op; rewrite ?ltd_t by assumption; rewrite ?ltd_f by assumption; op; f_equal; unfold Rpower, Rdiv, Rminus; try (field; try side); try ring.
Lemma ExpCutoff_derivs : derivatives_ok 7 ExpCutoff_dom ExpCutoff_value ExpCutoff_deriv.
Proof.
  start. destruct Hd as (Hx & HE & HB & HP & H3). pose proof (near_pos _ HE) as NE0.
  destruct (Rlt_dec x r2) as [HL|HL].
  - pose proof (near_lt (fun _ => x) (fun v => v) r2 ltac:(ctn) ltac:(ctn) HL) as NB.
    destruct i as [|[|[|[|[|[|[|i]]]]]]]; [specialize (HP eq_refl)| | | | | | |lia]; apply ex_swap; eexists;
    (split; [eapply partial_intro; [reflexivity| closed ExpCutoff_low | auto_derive; [try side|reflexivity]]|cfin ExpCutoff_low]).
  - assert (HL' : r2 <= x) by lra. destruct (HB HL') as [H0 HP1]. pose proof (near_ne (fun v => v) r3 0 ltac:(ctn) HP1) as NP.
    destruct i as [|[|[|[|[|[|[|i]]]]]]]; [specialize (HP eq_refl)| | |specialize (H3 eq_refl); pose proof (near_and _ _ _ (near_pos _ H0) (near_lt (fun v => v) (fun _ => x) r2 ltac:(ctn) ltac:(ctn) ltac:(lra))) as NB| | | |lia]; apply ex_swap; eexists;
    (split; [eapply partial_intro; [reflexivity| closed ExpCutoff_high | auto_derive; [try side|reflexivity]]|cfin ExpCutoff_high]).
Qed.

Definition cutx (x eabs p1 : R) : R := (x - eabs) / p1.
Lemma BPLExp_1 pref i1 i2 brk eabs p1 x : 0 < x -> 0 < brk -> x < brk -> x < eabs -> BPLExp_value [pref; i1; i2; brk; eabs; p1] x = Some (pref * exp (i1 * ln (x / brk))).
Proof. intros Hx HE H1 H2. unfold BPLExp_value. op. rewrite !ltd_t by auto. reflexivity. Qed.
Lemma BPLExp_2 pref i1 i2 brk eabs p1 x : 0 < x -> 0 < brk -> brk < x -> x < eabs -> BPLExp_value [pref; i1; i2; brk; eabs; p1] x = Some (pref * exp (i2 * ln (x / brk))).
Proof. intros Hx HE H1 H2. unfold BPLExp_value. op. rewrite (ltd_f x brk) by lra. rewrite !ltd_t by auto. reflexivity. Qed.
Lemma BPLExp_3 pref i1 i2 brk eabs p1 x : 0 < x -> 0 < brk -> x < brk -> eabs < x -> p1 <> 0 -> BPLExp_value [pref; i1; i2; brk; eabs; p1] x = Some (pref * exp (i1 * ln (x / brk)) * exp (- ((x - eabs) / p1))).
Proof. intros Hx HE H1 H2 H3. unfold BPLExp_value. op. rewrite (ltd_f x eabs) by lra. rewrite (ltd_f brk x) by lra. rewrite !ltd_t by auto. reflexivity. Qed.
Lemma BPLExp_4 pref i1 i2 brk eabs p1 x : 0 < x -> 0 < brk -> brk < x -> eabs < x -> p1 <> 0 -> BPLExp_value [pref; i1; i2; brk; eabs; p1] x = Some (pref * exp (i2 * ln (x / brk)) * exp (- ((x - eabs) / p1))).
Proof. intros Hx HE H1 H2 H3. unfold BPLExp_value. op. rewrite (ltd_f x eabs), (ltd_f x brk) by lra. rewrite !ltd_t by auto. reflexivity. Qed.
Ltac bred := repeat first [rewrite ltd_t by assumption | rewrite ltd_f by lra]; cbn [andb]; op.
Ltac bpar Ok := apply ex_swap; eexists; (split; [eapply partial_intro; [reflexivity| closed Ok | auto_derive; [try side|reflexivity]]|
  unfold BPLExp_deriv; repeat match goal with H : nth_error _ _ = Some _ |- _ => rewrite H end; rewrite Ok by (auto; lra); bred;
  try (match goal with |- context [Req_EM_T ?r 0] => destruct (Req_EM_T r 0); [try contradiction|try contradiction] end); bred; f_equal; unfold Rpower, Rdiv, Rminus; try (field; try side)]).
Lemma BPLExp_derivs : derivatives_ok 6 BPLExp_dom BPLExp_value BPLExp_deriv.
Proof.
  start. destruct Hd as (Hx & HE & H1 & H2 & H3 & H4).
  destruct (nth_error sc 4) as [es|] eqn:Es; [|apply nth_error_None in Es; lia]. destruct (nth_error sc 5) as [ps|] eqn:Ep; [|apply nth_error_None in Ep; lia].
  destruct (Rdichotomy _ _ H1) as [L1|L1]; destruct (Rdichotomy _ _ H2) as [L2|L2].
  - pose proof (near_and _ _ _ (near_pos _ HE) (near_lt (fun _ => x) (fun v => v) r2 ltac:(ctn) ltac:(ctn) L1)) as N3. pose proof (near_lt (fun _ => x) (fun v => v) r3 ltac:(ctn) ltac:(ctn) L2) as N4.
    destruct i as [|[|[|[|[|[|i]]]]]]; [destruct (Req_dec r 0) as [Z|Z]| | | | | |lia]; try (assert (es = s) by congruence; subst es); try (assert (ps = s) by congruence; subst ps); bpar BPLExp_1.
  - pose proof (near_and _ _ _ (near_pos _ HE) (near_lt (fun _ => x) (fun v => v) r2 ltac:(ctn) ltac:(ctn) L1)) as N3. pose proof (near_lt (fun v => v) (fun _ => x) r3 ltac:(ctn) ltac:(ctn) L2) as N4.
    specialize (H3 L2). pose proof (near_ne (fun v => v) r4 0 ltac:(ctn) H3) as N5.
    destruct i as [|[|[|[|[|[|i]]]]]]; [destruct (Req_dec r 0) as [Z|Z]| | | | | |lia]; try (assert (es = s) by congruence; subst es); try (assert (ps = s) by congruence; subst ps); bpar BPLExp_3.
    destruct (H4 eq_refl) as [C|[C|[[= ->] [= ->]]]]; try contradiction; try lra. rewrite !Rmult_1_r. replace (- (x + - r3) * / r4) with (- ((x + - r3) * / r4)) by ring. ring.
  - pose proof (near_and _ _ _ (near_pos _ HE) (near_lt (fun v => v) (fun _ => x) r2 ltac:(ctn) ltac:(ctn) L1)) as N3. pose proof (near_lt (fun _ => x) (fun v => v) r3 ltac:(ctn) ltac:(ctn) L2) as N4.
    destruct i as [|[|[|[|[|[|i]]]]]]; [destruct (Req_dec r 0) as [Z|Z]| | | | | |lia]; try (assert (es = s) by congruence; subst es); try (assert (ps = s) by congruence; subst ps); bpar BPLExp_2.
  - pose proof (near_and _ _ _ (near_pos _ HE) (near_lt (fun v => v) (fun _ => x) r2 ltac:(ctn) ltac:(ctn) L1)) as N3. pose proof (near_lt (fun v => v) (fun _ => x) r3 ltac:(ctn) ltac:(ctn) L2) as N4.
    specialize (H3 L2). pose proof (near_ne (fun v => v) r4 0 ltac:(ctn) H3) as N5.
    destruct i as [|[|[|[|[|[|i]]]]]]; [destruct (Req_dec r 0) as [Z|Z]| | | | | |lia]; try (assert (es = s) by congruence; subst es); try (assert (ps = s) by congruence; subst ps); bpar BPLExp_4.
    destruct (H4 eq_refl) as [C|[C|[[= ->] [= ->]]]]; try contradiction; try lra. rewrite !Rmult_1_r. replace (- (x + - r3) * / r4) with (- ((x + - r3) * / r4)) by ring. ring.
Qed.

(** Broken power laws and the Band function: derivatives (proofs of C35). *)
From Coq Require Import Reals Lra.
From Coquelicot Require Import Coquelicot.
From Verif Require Import Base DerivSpec SpecFn SpecDom SpecTac SpecExpModel SpecExp SpecBrkModel.
Local Open Scope R_scope.

(** *** Smooth breaks *)
Lemma exp1_pos a : 0 < 1 + exp a.
Proof. pose proof (exp_pos a). lra. Qed.
Ltac pos1 := first [apply exp1_pos | pos].
Ltac nz1 := first [nz | (apply Rgt_not_eq; apply exp1_pos) | match goal with |- context [exp ?a] => pose proof (exp_pos a); lra end].
Ltac unopp := repeat match goal with |- context [exp (- ?a * / ?b * ?l)] => replace (exp (- a * / b * l)) with (/ exp (a * / b * l)) by (rewrite <- exp_Ropp; f_equal; ring) end.
Ltac op1 := unfold Rpower; repeat first [rewrite rdiv_ok by nz1 | rewrite rlog_ok by pos1 | (rewrite rpow_ok by pos1; unfold Rpower)].
Ltac side1 := repeat split; first [exact I | pos1 | nz1].

Lemma Smooth_ok pref i1 scale i2 brk beta x : 0 < x -> 0 < scale -> 0 < brk -> beta <> 0 ->
  Smooth_value [pref; i1; scale; i2; brk; beta] x = Some (pref * exp (i1 * ln (x / scale)) * exp (- beta * ln (1 + exp ((i1 - i2) / beta * ln (x / brk))))).
Proof. intros Hx HE HB HC. unfold Smooth_value. op1. reflexivity. Qed.
Ltac sfin := unfold smooth_dbrk, smooth_dbeta; op1; f_equal; unfold Rdiv, Rminus; unopp; try (field; try side1).
Lemma Smooth_derivs : derivatives_ok 6 Smooth_dom Smooth_value Smooth_deriv.
Proof.
  start. destruct Hd as (Hx & HE & HB & HC & HP). pose proof (near_pos _ HE) as N2. pose proof (near_pos _ HB) as N4. pose proof (near_ne (fun v => v) r4 0 ltac:(ctn) HC) as N5.
  destruct i as [|[|[|[|[|[|i]]]]]]; [specialize (HP eq_refl)| | | | | |lia]; apply ex_swap; eexists;
  (split; [eapply partial_intro; [reflexivity| closed Smooth_ok | auto_derive; [try side1|reflexivity]]|
   unfold Smooth_deriv; rewrite Hs; rewrite Smooth_ok by auto; sfin]).
Qed.

Lemma Smooth2_ok pref i1 scale i2 b12 be12 i3 b23 be23 x : 0 < x -> 0 < scale -> 0 < b12 -> be12 <> 0 -> 0 < b23 -> be23 <> 0 ->
  Smooth2_value [pref; i1; scale; i2; b12; be12; i3; b23; be23] x =
  Some (pref * exp (i1 * ln (x / scale)) * exp (- be12 * ln (1 + exp ((i1 - i2) / be12 * ln (x / b12)))) * exp (- be23 * ln (1 + exp ((i2 - i3) / be23 * ln (x / b23))))).
Proof. intros Hx HE HB HC HB2 HC2. unfold Smooth2_value. op1. reflexivity. Qed.
Lemma Smooth2_derivs : derivatives_ok 9 Smooth2_dom Smooth2_value Smooth2_deriv.
Proof.
  start. destruct Hd as (Hx & HE & HB & HC & HB2 & HC2 & HP & HS). pose proof (near_pos _ HE) as N2. pose proof (near_pos _ HB) as N4. pose proof (near_ne (fun v => v) r4 0 ltac:(ctn) HC) as N5.
  pose proof (near_pos _ HB2) as N7. pose proof (near_ne (fun v => v) r7 0 ltac:(ctn) HC2) as N8.
  destruct i as [|[|[|[|[|[|[|[|[|i]]]]]]]]]; [specialize (HP eq_refl)| | |specialize (HS eq_refl); assert (s = 1) by congruence; subst s| | | | | |lia]; apply ex_swap; eexists;
  (split; [eapply partial_intro; [reflexivity| closed Smooth2_ok | auto_derive; [try side1|reflexivity]]|
   unfold Smooth2_deriv; rewrite Hs; rewrite Smooth2_ok by auto; sfin]).
Qed.

(** *** BandFunction *)
Lemma Band_flat n0 al be ep sc x : 0 < x -> 0 < sc -> al <= be -> Band_value [n0; al; be; ep; sc] x = Some (n0 * exp (be * ln (x / sc))).
Proof. intros Hx HE HA. unfold Band_value. op1. rewrite ltd_f by auto. op1. reflexivity. Qed.
Lemma Band_low n0 al be ep sc x : 0 < x -> 0 < sc -> 0 < ep -> be < al -> x / sc < ep / sc * (al - be) -> Band_value [n0; al; be; ep; sc] x = Some (n0 * exp (al * ln (x / sc)) * exp (- (x / sc) / (ep / sc))).
Proof. intros Hx HE H0 HA HB. assert (0 < ep / sc) by pos. unfold Band_value. op1. rewrite !ltd_t by auto. op1. reflexivity. Qed.
Lemma Band_high n0 al be ep sc x : 0 < x -> 0 < sc -> 0 < ep -> be < al -> ep / sc * (al - be) <= x / sc ->
  Band_value [n0; al; be; ep; sc] x = Some (n0 * exp (be * ln (x / sc)) * exp ((al - be) * ln (ep / sc * (al - be))) * exp (be - al)).
Proof. intros Hx HE H0 HA HB. assert (0 < ep / sc * (al - be)) by (apply Rmult_lt_0_compat; [pos|lra]). unfold Band_value. op1. rewrite ltd_t by auto. rewrite ltd_f by auto. op1. reflexivity. Qed.
Ltac bdfin := unfold Band_deriv; match goal with H : nth_error _ _ = Some _ |- _ => rewrite H end; op1.
Lemma Band_derivs : derivatives_ok 5 Band_dom Band_value Band_deriv.
Proof.
  start. destruct Hd as (Hx & HE & H0 & Hi4 & HP & HA & HB & HC).
  destruct (Rlt_dec r1 r0) as [L|L]; [destruct (Rlt_dec (x / r3) (r2 / r3 * (r0 - r1))) as [L2|L2]|].
  - pose proof (near_and _ _ _ (near_lt (fun _ => r1) (fun v => v) r0 ltac:(ctn) ltac:(ctn) L) (near_lt (fun _ => x / r3) (fun v => r2 / r3 * (v - r1)) r0 ltac:(ctn) ltac:(ctn) L2)) as N1.
    pose proof (near_and _ _ _ (near_lt (fun v => v) (fun _ => r0) r1 ltac:(ctn) ltac:(ctn) L) (near_lt (fun _ => x / r3) (fun v => r2 / r3 * (r0 - v)) r1 ltac:(ctn) ltac:(ctn) L2)) as N2.
    pose proof (near_and _ _ _ (near_pos _ H0) (near_lt (fun _ => x / r3) (fun v => v / r3 * (r0 - r1)) r2 ltac:(ctn) ltac:(ctn) L2)) as N3.
    destruct i as [|[|[|[|i]]]]; [specialize (HP eq_refl)| | | |lia]; apply ex_swap; eexists;
    (split; [eapply partial_intro; [reflexivity| closed Band_low | auto_derive; [try side1|reflexivity]]|
     bdfin; rewrite ?Band_low by auto; op1; rewrite ?ltd_t by auto; op1; f_equal; unfold Rdiv, Rminus; try (field; try side1)]).
  - assert (L2' : r2 / r3 * (r0 - r1) <= x / r3) by lra. assert (PB : 0 < r2 / r3 * (r0 - r1)) by (apply Rmult_lt_0_compat; [pos|lra]). assert (PE : 0 < r2 / r3) by pos. assert (D : 0 < r0 - r1) by lra.
    destruct i as [|[|[|[|i]]]]; [specialize (HP eq_refl)|assert (L3 : r2 / r3 * (r0 - r1) < x / r3) by (pose proof (HC ltac:(auto) L); lra)..|lia].
    + apply ex_swap; eexists; (split; [eapply partial_intro; [reflexivity| closed Band_high | auto_derive; [try side1|reflexivity]]|
      bdfin; rewrite ?Band_high by auto; op1; rewrite ?ltd_t by auto; rewrite ?ltd_f by auto; op1; f_equal; unfold Rdiv, Rminus; try (field; try side1)]).
    + pose proof (near_and _ _ _ (near_lt (fun _ => r1) (fun v => v) r0 ltac:(ctn) ltac:(ctn) L) (near_lt (fun v => r2 / r3 * (v - r1)) (fun _ => x / r3) r0 ltac:(ctn) ltac:(ctn) L3)) as N1.
      apply ex_swap; eexists; (split; [eapply partial_intro; [reflexivity| near N1; apply Band_high; solve [auto|lra] | auto_derive; [try side1|reflexivity]]|]).
      bdfin; rewrite ?Band_high by auto; op1; rewrite ?ltd_t by auto; rewrite ?ltd_f by auto; op1; f_equal; unfold Rdiv, Rminus; try (field; try side1).
    + pose proof (near_and _ _ _ (near_lt (fun v => v) (fun _ => r0) r1 ltac:(ctn) ltac:(ctn) L) (near_lt (fun v => r2 / r3 * (r0 - v)) (fun _ => x / r3) r1 ltac:(ctn) ltac:(ctn) L3)) as N1.
      apply ex_swap; eexists; (split; [eapply partial_intro; [reflexivity| near N1; apply Band_high; solve [auto|lra] | auto_derive; [try side1|reflexivity]]|]).
      bdfin; rewrite ?Band_high by auto; op1; rewrite ?ltd_t by auto; rewrite ?ltd_f by auto; op1. f_equal.
      replace (ln (x / r3 / (r2 / r3) / (r0 - r1))) with (ln (x / r3) - ln (r2 / r3 * (r0 - r1))). unfold Rdiv, Rminus; field; side1.
      replace (x / r3 / (r2 / r3) / (r0 - r1)) with (x / r3 / (r2 / r3 * (r0 - r1))) by (field; repeat split; lra). rewrite (ln_div (x / r3) (r2 / r3 * (r0 - r1))) by pos. reflexivity.
    + pose proof (near_and _ _ _ (near_pos _ H0) (near_lt (fun v => v / r3 * (r0 - r1)) (fun _ => x / r3) r2 ltac:(ctn) ltac:(ctn) L3)) as N1.
      apply ex_swap; eexists; (split; [eapply partial_intro; [reflexivity| near N1; apply Band_high; solve [auto|lra] | auto_derive; [try side1|reflexivity]]|]).
      bdfin; rewrite ?Band_high by auto; op1; rewrite ?ltd_t by auto; rewrite ?ltd_f by auto; op1; f_equal; unfold Rdiv, Rminus; try (field; try side1).
  - assert (L' : r0 <= r1) by lra. destruct i as [|[|[|[|i]]]]; [specialize (HP eq_refl)|specialize (HA eq_refl); contradiction|specialize (HB eq_refl)| |lia];
    [|pose proof (near_lt (fun _ => r0) (fun v => v) r1 ltac:(ctn) ltac:(ctn) ltac:(lra)) as N2|];
    apply ex_swap; eexists; (split; [eapply partial_intro; [reflexivity| closed Band_flat | auto_derive; [try side1|reflexivity]]|
    bdfin; rewrite ?Band_flat by auto; op1; rewrite ?ltd_f by auto; op1; f_equal; unfold Rdiv, Rminus; try (field; try side1)]).
Qed.

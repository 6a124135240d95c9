(** BrokenPowerLaw2 and BrokenPowerLaw3: derivatives (proofs of C35). *)
From Coq Require Import Reals Lra.
From Coquelicot Require Import Coquelicot.
From Verif Require Import Base DerivSpec SpecFn SpecDom SpecTac SpecPow SpecExpModel SpecExp SpecBrkModel SpecBrk.
Local Open Scope R_scope.

(** *** BrokenPowerLaw2 *)
Lemma quot_neg o u : o <> 0 -> u <= 0 -> 0 <= (1 - exp (o * u)) / o.
Proof.
  intros Ho Hu. destruct (Rdichotomy _ _ Ho) as [L|L].
  - assert (0 <= o * u) by (replace (o * u) with (- o * - u) by ring; apply Rmult_le_pos; lra). assert (1 <= exp (o * u)) by (rewrite <- exp_0; destruct H; [left; now apply exp_increasing|rewrite <- H; lra]).
    replace ((1 - exp (o * u)) / o) with ((exp (o * u) - 1) / - o) by (field; auto). apply Rmult_le_pos; [lra|]. left. apply Rinv_0_lt_compat. lra.
  - assert (o * u <= 0) by (replace (o * u) with (- (o * - u)) by ring; assert (0 <= o * - u) by (apply Rmult_le_pos; lra); lra).
    assert (exp (o * u) <= 1) by (rewrite <- exp_0; destruct H; [left; now apply exp_increasing|rewrite H; lra]). apply Rmult_le_pos; [lra|]. left. apply Rinv_0_lt_compat. lra.
Qed.
Lemma quot_pos o u : o <> 0 -> 0 <= u -> 0 <= (exp (o * u) - 1) / o.
Proof.
  intros Ho Hu. replace ((exp (o * u) - 1) / o) with ((1 - exp (- o * - u)) / - o). apply quot_neg; lra. replace (- o * - u) with (o * u) by ring. field. auto.
Qed.
Lemma quot_zero o u : o <> 0 -> (1 - exp (o * u)) / o = 0 -> u = 0.
Proof.
  intros Ho E. assert (E' : 1 - exp (o * u) = 0). { replace (1 - exp (o * u)) with ((1 - exp (o * u)) / o * o) by (field; auto). rewrite E. ring. }
  assert (E2 : exp (o * u) = exp 0) by (rewrite exp_0; lra). apply exp_inv in E2. apply Rmult_integral in E2. tauto.
Qed.
Lemma ln_le_0 a b : 0 < a -> a <= b -> ln (a / b) <= 0.
Proof. intros Ha H. rewrite ln_div by lra. destruct H as [H|H]; [assert (ln a < ln b) by (apply ln_increasing; auto); lra|subst; lra]. Qed.
Lemma ln_ge_0 a b : 0 < b -> b <= a -> 0 <= ln (a / b).
Proof. intros Ha H. rewrite ln_div by lra. destruct H as [H|H]; [assert (ln b < ln a) by (apply ln_increasing; auto); lra|subst; lra]. Qed.
Lemma ln_eq_0 a b : 0 < a -> 0 < b -> ln (a / b) = 0 -> a = b.
Proof. intros Ha Hb H. rewrite ln_div in H by lra. apply ln_inv; auto. lra. Qed.
Lemma dC_pos o1 o2 x0 x1 x2 : o1 <> 0 -> o2 <> 0 -> 0 < x1 -> 0 < x0 -> x1 <= x0 -> x0 <= x2 -> x1 < x2 ->
  (1 - exp (o1 * ln (x1 / x0))) / o1 + (exp (o2 * ln (x2 / x0)) - 1) / o2 <> 0.
Proof.
  intros H1 H2 P1 P0 L1 L2 L. pose proof (quot_neg o1 (ln (x1 / x0)) H1 (ln_le_0 _ _ P1 L1)) as Q1. pose proof (quot_pos o2 (ln (x2 / x0)) H2 (ln_ge_0 _ _ P0 L2)) as Q2.
  intros E. assert (E1 : (1 - exp (o1 * ln (x1 / x0))) / o1 = 0) by lra. assert (E2 : (1 - exp (o2 * ln (x2 / x0))) / o2 = 0). { replace ((1 - exp (o2 * ln (x2 / x0))) / o2) with (- ((exp (o2 * ln (x2 / x0)) - 1) / o2)) by (field; auto). lra. }
  apply quot_zero in E1; auto. apply quot_zero in E2; auto. apply ln_eq_0 in E1; auto. apply ln_eq_0 in E2; lra.
Qed.
Lemma dA_nz o x0 x1 x2 : o <> 0 -> 0 < x0 -> 0 < x1 -> x1 < x2 -> exp (o * ln (x2 / x0)) - exp (o * ln (x1 / x0)) <> 0.
Proof.
  intros Ho P0 P1 L. assert (P2 : 0 < x2) by lra. apply exp_ln_neq; auto; try pos. intros E. assert (x1 = x2); [|lra]. unfold Rdiv in E. apply Rmult_eq_reg_r in E; auto. apply Rinv_neq_0_compat. lra.
Qed.
Section NormForms.
Context (NN i1 i2 x0 x1 x2 : R).
Let o1 := 1 - - i1.
Let o2 := 1 - - i2.
Lemma N0_A : 0 < x0 -> 0 < x1 -> x1 < x2 -> i2 <> -1 -> x0 < x1 ->
  BPL2_N0 NN i1 i2 x0 x1 x2 = Some (NN * (1 - - i2) / x0 / (exp ((1 - - i2) * ln (x2 / x0)) - exp ((1 - - i2) * ln (x1 / x0)))).
Proof. intros P0 P1 L Hi LA. assert (D := dA_nz (1 - - i2) x0 x1 x2 ltac:(lra) P0 P1 L). assert (P2 : 0 < x2) by lra. unfold BPL2_N0. op1. rewrite ltd_t by auto. op1. reflexivity. Qed.
Lemma N0_B : 0 < x0 -> 0 < x1 -> x1 < x2 -> i1 <> -1 -> x2 < x0 ->
  BPL2_N0 NN i1 i2 x0 x1 x2 = Some (NN * (1 - - i1) / x0 / (exp ((1 - - i1) * ln (x2 / x0)) - exp ((1 - - i1) * ln (x1 / x0)))).
Proof. intros P0 P1 L Hi LA. assert (D := dA_nz (1 - - i1) x0 x1 x2 ltac:(lra) P0 P1 L). assert (P2 : 0 < x2) by lra. unfold BPL2_N0. op1. rewrite ltd_f by lra. rewrite ltd_t by auto. op1. reflexivity. Qed.
Lemma N0_C : 0 < x0 -> 0 < x1 -> x1 < x2 -> i1 <> -1 -> i2 <> -1 -> x1 <= x0 -> x0 <= x2 ->
  BPL2_N0 NN i1 i2 x0 x1 x2 = Some (NN / x0 / ((1 - exp ((1 - - i1) * ln (x1 / x0))) / (1 - - i1) + (exp ((1 - - i2) * ln (x2 / x0)) - 1) / (1 - - i2))).
Proof.
  intros P0 P1 L Hi1 Hi2 LA LB. assert (D := dC_pos (1 - - i1) (1 - - i2) x0 x1 x2 ltac:(lra) ltac:(lra) P1 P0 LA LB L). assert (P2 : 0 < x2) by lra.
  unfold BPL2_N0. op1. rewrite !ltd_f by lra. op1. reflexivity.
Qed.
End NormForms.
Lemma BPL2_A1 NN i1 i2 x0 x1 x2 x : 0 < x -> 0 < x0 -> 0 < x1 -> x1 < x2 -> i2 <> -1 -> x0 < x1 -> x < x0 ->
  BPL2_value [NN; i1; i2; x0; x1; x2] x = Some (NN * (1 - - i2) / x0 / (exp ((1 - - i2) * ln (x2 / x0)) - exp ((1 - - i2) * ln (x1 / x0))) * exp (- - i1 * ln (x / x0))).
Proof. intros. unfold BPL2_value. rewrite N0_A by auto. op1. rewrite ltd_t by auto. op1. reflexivity. Qed.
Lemma BPL2_A2 NN i1 i2 x0 x1 x2 x : 0 < x -> 0 < x0 -> 0 < x1 -> x1 < x2 -> i2 <> -1 -> x0 < x1 -> x0 <= x ->
  BPL2_value [NN; i1; i2; x0; x1; x2] x = Some (NN * (1 - - i2) / x0 / (exp ((1 - - i2) * ln (x2 / x0)) - exp ((1 - - i2) * ln (x1 / x0))) * exp (- - i2 * ln (x / x0))).
Proof. intros. unfold BPL2_value. rewrite N0_A by auto. op1. rewrite ltd_f by auto. op1. reflexivity. Qed.
Lemma BPL2_B1 NN i1 i2 x0 x1 x2 x : 0 < x -> 0 < x0 -> 0 < x1 -> x1 < x2 -> i1 <> -1 -> x2 < x0 -> x < x0 ->
  BPL2_value [NN; i1; i2; x0; x1; x2] x = Some (NN * (1 - - i1) / x0 / (exp ((1 - - i1) * ln (x2 / x0)) - exp ((1 - - i1) * ln (x1 / x0))) * exp (- - i1 * ln (x / x0))).
Proof. intros. unfold BPL2_value. rewrite N0_B by auto. op1. rewrite ltd_t by auto. op1. reflexivity. Qed.
Lemma BPL2_B2 NN i1 i2 x0 x1 x2 x : 0 < x -> 0 < x0 -> 0 < x1 -> x1 < x2 -> i1 <> -1 -> x2 < x0 -> x0 <= x ->
  BPL2_value [NN; i1; i2; x0; x1; x2] x = Some (NN * (1 - - i1) / x0 / (exp ((1 - - i1) * ln (x2 / x0)) - exp ((1 - - i1) * ln (x1 / x0))) * exp (- - i2 * ln (x / x0))).
Proof. intros. unfold BPL2_value. rewrite N0_B by auto. op1. rewrite ltd_f by auto. op1. reflexivity. Qed.
Lemma BPL2_C1 NN i1 i2 x0 x1 x2 x : 0 < x -> 0 < x0 -> 0 < x1 -> x1 < x2 -> i1 <> -1 -> i2 <> -1 -> x1 <= x0 -> x0 <= x2 -> x < x0 ->
  BPL2_value [NN; i1; i2; x0; x1; x2] x = Some (NN / x0 / ((1 - exp ((1 - - i1) * ln (x1 / x0))) / (1 - - i1) + (exp ((1 - - i2) * ln (x2 / x0)) - 1) / (1 - - i2)) * exp (- - i1 * ln (x / x0))).
Proof. intros. unfold BPL2_value. rewrite N0_C by auto. op1. rewrite ltd_t by auto. op1. reflexivity. Qed.
Lemma BPL2_C2 NN i1 i2 x0 x1 x2 x : 0 < x -> 0 < x0 -> 0 < x1 -> x1 < x2 -> i1 <> -1 -> i2 <> -1 -> x1 <= x0 -> x0 <= x2 -> x0 <= x ->
  BPL2_value [NN; i1; i2; x0; x1; x2] x = Some (NN / x0 / ((1 - exp ((1 - - i1) * ln (x1 / x0))) / (1 - - i1) + (exp ((1 - - i2) * ln (x2 / x0)) - 1) / (1 - - i2)) * exp (- - i2 * ln (x / x0))).
Proof. intros. unfold BPL2_value. rewrite N0_C by auto. op1. rewrite ltd_f by auto. op1. reflexivity. Qed.

(** The limits ordered; the indices that enter the normalisation not -1; for Index1 and Index2 a positive weight of the
    index in the normalisation or no dependence at all; for BreakValue away from the break and from the limits. *)
Ltac side2 := repeat split; first [exact I | pos1 | nz1 | (unfold Rdiv, Rminus in *; assumption)].
Ltac dfin N Hl := unfold BPL2_deriv; match goal with H : nth_error _ _ = Some _ |- _ => rewrite H end; rewrite N by (auto; lra); op1;
  unfold BPL2_dN, BPL2_dI_out, BPL2_dI_in, BPL2_dx0; op1; repeat first [rewrite ltd_t by lra | rewrite ltd_f by lra]; op1; f_equal.
Ltac go V N := apply ex_swap; eexists; split; [eapply partial_intro; [reflexivity| closed V | auto_derive; [try side2|reflexivity]]|dfin N tt; unfold Rdiv, Rminus in *; try (field; try side2)].
Ltac one r2 := unfold Rdiv, Rminus; rewrite ?(Rinv_r r2) by lra; rewrite ?ln_1, ?Rmult_0_r, ?exp_0.
Ltac go0 V N r2 := apply ex_swap; eexists; split; [eapply partial_intro; [reflexivity| closed V | auto_derive; [try side2|reflexivity]]|dfin N tt; one r2; unfold Rdiv, Rminus in *; try (field; try side2)].
Lemma BPL2_derivs : derivatives_ok 6 BPL2_dom BPL2_value BPL2_deriv.
Proof.
  start. destruct Hd as (Hx & P0 & P1 & L12 & Hi4 & G1 & G2 & HN & HA & HB & H3). assert (P2 : 0 < r4) by lra.
  pose proof (near_ne (fun v => v) r0 (-1) ltac:(ctn)) as M1. pose proof (near_ne (fun v => v) r1 (-1) ltac:(ctn)) as M2. cbv beta in M1, M2.
  destruct (Rlt_dec r2 r3) as [RA|RA]; [|destruct (Rlt_dec r4 r2) as [RB|RB]].
  - assert (I2 : r1 <> -1) by (apply G2; lra). specialize (M2 I2). clear M1 G1 G2. assert (D := dA_nz (1 - - r1) r2 r3 r4 ltac:(lra) P0 P1 L12).
    destruct (Rlt_dec x r2) as [L|L].
    + destruct i as [|[|[|[|i]]]]; [|specialize (HA eq_refl RA); lra| | |lia]; try specialize (HN ltac:(lia)); try go BPL2_A1 N0_A.
      pose proof (near_and _ _ _ (near_pos _ P0) (near_and _ _ _ (near_lt (fun v => v) (fun _ => r3) r2 ltac:(ctn) ltac:(ctn) RA) (near_lt (fun _ => x) (fun v => v) r2 ltac:(ctn) ltac:(ctn) L))) as N3.
      go BPL2_A1 N0_A.
    + assert (L' : r2 <= x) by lra. destruct i as [|[|[|[|i]]]]; [| | | |lia]; try specialize (HN ltac:(lia)); [go BPL2_A2 N0_A|go BPL2_A2 N0_A|destruct (Req_dec x r2) as [EQ|EQ]; [subst x; go0 BPL2_A2 N0_A r2|assert (L3 : r2 < x) by lra; go BPL2_A2 N0_A]|].
      assert (L3 : r2 < x) by (destruct (H3 eq_refl); lra).
      pose proof (near_and _ _ _ (near_pos _ P0) (near_and _ _ _ (near_lt (fun v => v) (fun _ => r3) r2 ltac:(ctn) ltac:(ctn) RA) (near_lt (fun v => v) (fun _ => x) r2 ltac:(ctn) ltac:(ctn) L3))) as N3.
      go BPL2_A2 N0_A.
  - assert (I1 : r0 <> -1) by (apply G1; lra). specialize (M1 I1). clear M2 G1 G2. assert (D := dA_nz (1 - - r0) r2 r3 r4 ltac:(lra) P0 P1 L12).
    destruct (Rlt_dec x r2) as [L|L].
    + destruct i as [|[|[|[|i]]]]; [| | | |lia]; try specialize (HN ltac:(lia)); try go BPL2_B1 N0_B.
      pose proof (near_and _ _ _ (near_pos _ P0) (near_and _ _ _ (near_lt (fun _ => r4) (fun v => v) r2 ltac:(ctn) ltac:(ctn) RB) (near_lt (fun _ => x) (fun v => v) r2 ltac:(ctn) ltac:(ctn) L))) as N3.
      go BPL2_B1 N0_B.
    + assert (L' : r2 <= x) by lra. destruct i as [|[|[|[|i]]]]; [| | | |lia]; try specialize (HN ltac:(lia)); [go BPL2_B2 N0_B|go BPL2_B2 N0_B|destruct (Req_dec x r2) as [EQ|EQ]; [subst x; go0 BPL2_B2 N0_B r2|specialize (HB eq_refl RB); lra]|].
      assert (L3 : r2 < x) by (destruct (H3 eq_refl); lra).
      pose proof (near_and _ _ _ (near_pos _ P0) (near_and _ _ _ (near_lt (fun _ => r4) (fun v => v) r2 ltac:(ctn) ltac:(ctn) RB) (near_lt (fun v => v) (fun _ => x) r2 ltac:(ctn) ltac:(ctn) L3))) as N3.
      go BPL2_B2 N0_B.
  - assert (RA' : r3 <= r2) by lra. assert (RB' : r2 <= r4) by lra. assert (I1 : r0 <> -1) by (apply G1; lra). assert (I2 : r1 <> -1) by (apply G2; lra). specialize (M1 I1). specialize (M2 I2). clear G1 G2.
    assert (D := dC_pos (1 - - r0) (1 - - r1) r2 r3 r4 ltac:(lra) ltac:(lra) P1 P0 RA' RB' L12).
    assert (D2 : (1 + - exp ((1 + - - r0) * ln (r3 * / r2))) * (1 + - - r1) + (exp ((1 + - - r1) * ln (r4 * / r2)) + -1) * (1 + - - r0) <> 0).
    { intros E. apply D. unfold Rdiv, Rminus. apply Rmult_eq_reg_r with ((1 + - - r0) * (1 + - - r1)); [|nz]. rewrite Rmult_0_l, <- E. field. split; lra. }
    destruct (Rlt_dec x r2) as [L|L].
    + destruct i as [|[|[|[|i]]]]; [| | | |lia]; try specialize (HN ltac:(lia)); try go BPL2_C1 N0_C.
      destruct (H3 eq_refl) as (E1 & E2 & E3).
      pose proof (near_and _ _ _ (near_pos _ P0) (near_and _ _ _ (near_lt (fun _ => r3) (fun v => v) r2 ltac:(ctn) ltac:(ctn) ltac:(lra)) (near_and _ _ _ (near_lt (fun v => v) (fun _ => r4) r2 ltac:(ctn) ltac:(ctn) ltac:(lra)) (near_lt (fun _ => x) (fun v => v) r2 ltac:(ctn) ltac:(ctn) L)))) as N3.
      go BPL2_C1 N0_C.
    + assert (L' : r2 <= x) by lra. destruct i as [|[|[|[|i]]]]; [| | | |lia]; try specialize (HN ltac:(lia)); [go BPL2_C2 N0_C|go BPL2_C2 N0_C|destruct (Req_dec x r2) as [EQ|EQ]; [subst x; go0 BPL2_C2 N0_C r2|assert (L3 : r2 < x) by lra; go BPL2_C2 N0_C]|].
      destruct (H3 eq_refl) as (E1 & E2 & E3). assert (L3 : r2 < x) by lra.
      pose proof (near_and _ _ _ (near_pos _ P0) (near_and _ _ _ (near_lt (fun _ => r3) (fun v => v) r2 ltac:(ctn) ltac:(ctn) ltac:(lra)) (near_and _ _ _ (near_lt (fun v => v) (fun _ => r4) r2 ltac:(ctn) ltac:(ctn) ltac:(lra)) (near_lt (fun v => v) (fun _ => x) r2 ltac:(ctn) ltac:(ctn) L3)))) as N3.
      go BPL2_C2 N0_C.
Qed.

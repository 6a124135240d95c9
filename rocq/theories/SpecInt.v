(** Integrals of the spectra (C36). *)
From Coq Require Import Reals Lra.
From Coquelicot Require Import Coquelicot.
From Verif Require Import Base DerivSpec SpecFn SpecDom SpecTac SpecPowModel SpecPow SpecExpModel SpecExp SpecBrkModel SpecBrk SpecBrk2 SpecBrk3 SpecList SpecIntModel SpecIntSpec SpecCont.
Local Open Scope R_scope.

Lemma integral_intro (V : fvalue) t f a b v : (forall x, Rmin a b <= x <= Rmax a b -> V t x = Some (f x)) -> is_RInt f a b v -> integral_is V t a b v.
Proof.
  intros A B. assert (E : ex_RInt f a b) by (exists v; exact B). exists f, (ex_RInt_Reals_0 _ _ _ E). split; auto.
  rewrite <- RInt_Reals. now apply is_RInt_unique.
Qed.
Lemma between a b x : 0 < a -> 0 < b -> Rmin a b <= x <= Rmax a b -> 0 < x.
Proof. intros A B [H _]. unfold Rmin in H. destruct (Rle_dec a b); lra. Qed.
(** The integral of a power law. *)
Lemma power_int K g x0 a b : 0 < x0 -> 0 < a -> 0 < b -> 1 + g <> 0 ->
  is_RInt (fun x => K * exp (g * ln (x / x0))) a b (K * x0 * (exp ((1 + g) * ln (b / x0)) - exp ((1 + g) * ln (a / x0))) / (1 + g)).
Proof.
  intros P A B N.
  replace (K * x0 * (exp ((1 + g) * ln (b / x0)) - exp ((1 + g) * ln (a / x0))) / (1 + g))
    with (minus (K * x0 / (1 + g) * exp ((1 + g) * ln (b / x0))) (K * x0 / (1 + g) * exp ((1 + g) * ln (a / x0)))) by (unfold minus, plus, opp; simpl; field; auto).
  apply (is_RInt_derive (fun x => K * x0 / (1 + g) * exp ((1 + g) * ln (x / x0)))).
  - intros x H. pose proof (between _ _ _ A B H) as X. auto_derive. { repeat split; auto; try lra. pos. }
    unfold Rdiv. replace ((1 + g) * ln (x * / x0)) with (ln (x * / x0) + g * ln (x * / x0)) by ring. rewrite exp_plus, exp_ln by pos. field. split; lra.
  - intros x H. pose proof (between _ _ _ A B H) as X. apply der_cont. auto_derive. repeat split; auto; try lra. pos.
Qed.
(** The same with 1/x. *)
Lemma inv_int K a b : 0 < a -> 0 < b -> is_RInt (fun x => K / x) a b (K * (ln b - ln a)).
Proof.
  intros A B. replace (K * (ln b - ln a)) with (minus (K * ln b) (K * ln a)) by (unfold minus, plus, opp; simpl; ring).
  apply (is_RInt_derive (fun x => K * ln x)).
  - intros x H. pose proof (between _ _ _ A B H) as X. auto_derive; auto. unfold Rdiv. ring.
  - intros x H. pose proof (between _ _ _ A B H) as X. apply der_cont. auto_derive. lra.
Qed.

Lemma PowerLaw2_int NN gamma x1 x2 a b : 0 < x1 -> 0 < x2 -> x1 <> x2 -> gamma <> -1 -> 0 < a -> 0 < b ->
  integral_is PowerLaw2_value [NN; gamma; x1; x2] a b (NN * ((exp ((1 + gamma) * ln b) - exp ((1 + gamma) * ln a)) / (exp ((1 + gamma) * ln x2) - exp ((1 + gamma) * ln x1)))).
Proof.
  intros P1 P2 N G A B. assert (D := exp_ln_neq (1 + gamma) x1 x2 P1 P2 N ltac:(lra)).
  eapply integral_intro.
  - intros x H. rewrite PowerLaw2_ok by (eauto using between). reflexivity.
  - simpl. set (K := NN * ((1 + gamma) / (exp ((1 + gamma) * ln x2) - exp ((1 + gamma) * ln x1)))).
    apply (is_RInt_ext (fun x => K * exp (gamma * ln (x / 1)))). { intros x _. replace (x / 1) with x by field. rewrite (Rmult_comm gamma). unfold K. reflexivity. }
    replace (NN * ((exp ((1 + gamma) * ln b) - exp ((1 + gamma) * ln a)) / (exp ((1 + gamma) * ln x2) - exp ((1 + gamma) * ln x1))))
      with (K * 1 * (exp ((1 + gamma) * ln (b / 1)) - exp ((1 + gamma) * ln (a / 1))) / (1 + gamma)).
    + apply power_int; lra.
    + unfold K. replace (a / 1) with a by field. replace (b / 1) with b by field. field. split; auto. lra.
Qed.
Lemma PowerLaw2_int1 NN x1 x2 a b : 0 < x1 -> 0 < x2 -> x1 <> x2 -> 0 < a -> 0 < b ->
  integral_is PowerLaw2_value [NN; -1; x1; x2] a b (NN * ((ln b - ln a) / (ln x2 - ln x1))).
Proof.
  intros P1 P2 N A B. assert (D := ln_neq x1 x2 P1 P2 N).
  eapply integral_intro.
  - intros x H. rewrite PowerLaw2_ok1 by (eauto using between). reflexivity.
  - simpl. apply (is_RInt_ext (fun x => NN / (ln x2 - ln x1) / x)). { intros x _. match goal with |- @eq _ ?a ?b => change (@eq R a b) end. unfold Rdiv. ring. }
    replace (NN * ((ln b - ln a) / (ln x2 - ln x1))) with (NN / (ln x2 - ln x1) * (ln b - ln a)) by (unfold Rdiv; ring). now apply inv_int.
Qed.

(** A broken power law. *)
Definition broken (K i1 i2 x0 x : R) : R := if Rltd x x0 then K * exp (i1 * ln (x / x0)) else K * exp (i2 * ln (x / x0)).
Lemma broken_int_low K i1 i2 x0 a b : 0 < x0 -> 0 < a -> a <= b -> b <= x0 -> i1 <> -1 ->
  is_RInt (broken K i1 i2 x0) a b (K * x0 * (exp ((1 + i1) * ln (b / x0)) - exp ((1 + i1) * ln (a / x0))) / (1 + i1)).
Proof.
  intros P A L B I. apply (is_RInt_ext (fun x => K * exp (i1 * ln (x / x0)))); [|apply power_int; lra].
  intros x H. rewrite Rmin_left, Rmax_right in H by lra. unfold broken. now rewrite ltd_t by lra.
Qed.
Lemma broken_int_high K i1 i2 x0 a b : 0 < x0 -> x0 <= a -> a <= b -> i2 <> -1 ->
  is_RInt (broken K i1 i2 x0) a b (K * x0 * (exp ((1 + i2) * ln (b / x0)) - exp ((1 + i2) * ln (a / x0))) / (1 + i2)).
Proof.
  intros P A L I. apply (is_RInt_ext (fun x => K * exp (i2 * ln (x / x0)))); [|apply power_int; lra].
  intros x H. rewrite Rmin_left, Rmax_right in H by lra. unfold broken. now rewrite ltd_f by lra.
Qed.
Lemma broken_int_both K i1 i2 x0 a b : 0 < x0 -> 0 < a -> a <= x0 -> x0 <= b -> i1 <> -1 -> i2 <> -1 ->
  is_RInt (broken K i1 i2 x0) a b (K * x0 * ((1 - exp ((1 + i1) * ln (a / x0))) / (1 + i1) + (exp ((1 + i2) * ln (b / x0)) - 1) / (1 + i2))).
Proof.
  intros P A L B I1 I2. assert (E : ln (x0 / x0) = 0) by (replace (x0 / x0) with 1 by (field; lra); apply ln_1).
  pose proof (broken_int_low K i1 i2 x0 a x0 P A L ltac:(lra) I1) as Q1. pose proof (broken_int_high K i1 i2 x0 x0 b P ltac:(lra) B I2) as Q2.
  rewrite E, Rmult_0_r, exp_0 in Q1. rewrite E, Rmult_0_r, exp_0 in Q2.
  replace (K * x0 * ((1 - exp ((1 + i1) * ln (a / x0))) / (1 + i1) + (exp ((1 + i2) * ln (b / x0)) - 1) / (1 + i2)))
    with (plus (K * x0 * (1 - exp ((1 + i1) * ln (a / x0))) / (1 + i1)) (K * x0 * (exp ((1 + i2) * ln (b / x0)) - 1) / (1 + i2))) by (unfold plus; simpl; field; lra).
  apply (is_RInt_Chasles (V := R_NormedModule) _ a x0 b); auto.
Qed.
(** Its integral is x0 times what integral() returns. *)
Lemma broken_integral_ok n0 x0 i1 i2 a b : 0 < x0 -> 0 < a -> 0 < b -> i1 <> -1 -> i2 <> -1 -> Rmin a b <> x0 \/ a = b ->
  exists v, broken_integral n0 x0 (1 + i1) (1 + i2) a b = Some v /\ is_RInt (broken n0 i1 i2 x0) a b (x0 * v).
Proof.
  intros P A B I1 I2 M.
  assert (W : forall a b, 0 < a -> a <= b -> a <> x0 \/ a = b -> exists v, broken_integral n0 x0 (1 + i1) (1 + i2) a b = Some (1 * v) /\ is_RInt (broken n0 i1 i2 x0) a b (x0 * v)
      /\ (a < b -> broken_integral n0 x0 (1 + i1) (1 + i2) b a = Some (-1 * v))).
  { clear a b A B M. intros a b A L M. assert (B : 0 < b) by lra. assert (1 + i1 <> 0) by lra. assert (1 + i2 <> 0) by lra.
    destruct (Rlt_le_dec a x0) as [H1|H1]; [destruct (Rlt_le_dec b x0) as [H2|H2]|].
    - exists (n0 * (exp ((1 + i1) * ln (b / x0)) - exp ((1 + i1) * ln (a / x0))) / (1 + i1)). split; [|split].
      + unfold broken_integral. rewrite (ltd_f b a) by lra. op. rewrite (ltd_t a x0), (ltd_t b x0), (ltd_f x0 a) by lra. simpl. op. reflexivity.
      + replace (x0 * _) with (n0 * x0 * (exp ((1 + i1) * ln (b / x0)) - exp ((1 + i1) * ln (a / x0))) / (1 + i1)) by (field; auto). apply broken_int_low; lra.
      + intros L'. unfold broken_integral. rewrite (ltd_t a b) by lra. op. rewrite (ltd_t a x0), (ltd_t b x0), (ltd_f x0 a) by lra. simpl. op. reflexivity.
    - exists (n0 * ((1 - exp ((1 + i1) * ln (a / x0))) / (1 + i1) + (exp ((1 + i2) * ln (b / x0)) - 1) / (1 + i2))). split; [|split].
      + unfold broken_integral. rewrite (ltd_f b a) by lra. op. rewrite (ltd_t a x0), (ltd_f b x0) by lra. simpl. op. reflexivity.
      + replace (x0 * _) with (n0 * x0 * ((1 - exp ((1 + i1) * ln (a / x0))) / (1 + i1) + (exp ((1 + i2) * ln (b / x0)) - 1) / (1 + i2))) by (field; auto). apply broken_int_both; lra.
      + intros L'. unfold broken_integral. rewrite (ltd_t a b) by lra. op. rewrite (ltd_t a x0), (ltd_f b x0) by lra. simpl. op. reflexivity.
    - destruct (Rle_lt_or_eq_dec _ _ H1) as [HH|HH].
      + exists (n0 * (exp ((1 + i2) * ln (b / x0)) - exp ((1 + i2) * ln (a / x0))) / (1 + i2)). split; [|split].
        * unfold broken_integral. rewrite (ltd_f b a) by lra. op. rewrite (ltd_f a x0), (ltd_t x0 a) by lra. simpl. op. reflexivity.
        * replace (x0 * _) with (n0 * x0 * (exp ((1 + i2) * ln (b / x0)) - exp ((1 + i2) * ln (a / x0))) / (1 + i2)) by (field; auto). apply broken_int_high; lra.
        * intros L'. unfold broken_integral. rewrite (ltd_t a b) by lra. op. rewrite (ltd_f a x0), (ltd_t x0 a) by lra. simpl. op. reflexivity.
      + destruct M as [M| <-]; [lra|]. subst a. exists (n0 * (exp ((1 + i1) * ln (x0 / x0)) - exp ((1 + i1) * ln (x0 / x0))) / (1 + i1)). split; [|split].
        * unfold broken_integral. rewrite (ltd_f x0 x0) by lra. op. simpl. op. rewrite ?(ltd_f x0 x0) by lra. reflexivity.
        * replace (x0 * _) with (@zero R_NormedModule) by (change (0 = x0 * (n0 * (exp ((1 + i1) * ln (x0 / x0)) - exp ((1 + i1) * ln (x0 / x0))) / (1 + i1))); field; auto). apply (is_RInt_point (V := R_NormedModule)).
        * lra. }
  destruct (Rle_lt_dec a b) as [L|L].
  - rewrite Rmin_left in M by lra. destruct (W a b A L M) as (v & Q1 & Q2 & _). exists v. rewrite Rmult_1_l in Q1. auto.
  - rewrite Rmin_right in M by lra. destruct (W b a B ltac:(lra)) as (v & _ & Q2 & Q3). { left. destruct M; lra. }
    exists (-1 * v). split; [auto|]. replace (x0 * (-1 * v)) with (opp (x0 * v)) by (unfold opp; simpl; ring). apply (is_RInt_swap (V := R_NormedModule)). exact Q2.
Qed.

Definition bpl2_ok (i1 i2 x0 x1 x2 : R) : Prop := 0 < x0 /\ 0 < x1 /\ x1 < x2 /\ (x1 <= x0 -> i1 <> -1) /\ (x0 <= x2 -> i2 <> -1).
Lemma BPL2_form NN i1 i2 x0 x1 x2 : bpl2_ok i1 i2 x0 x1 x2 -> exists n0, BPL2_N0 NN i1 i2 x0 x1 x2 = Some n0 /\
  (forall x, 0 < x -> BPL2_value [NN; i1; i2; x0; x1; x2] x = Some (broken n0 i1 i2 x0 x)) /\ is_RInt (broken n0 i1 i2 x0) x1 x2 NN.
Proof.
  intros (P0 & P1 & L & I1 & I2). assert (P2 : 0 < x2) by lra.
  assert (V : forall n0, BPL2_N0 NN i1 i2 x0 x1 x2 = Some n0 -> forall x, 0 < x -> BPL2_value [NN; i1; i2; x0; x1; x2] x = Some (broken n0 i1 i2 x0 x)).
  { intros n0 H x Hx. unfold BPL2_value. rewrite H. op. unfold broken. rewrite !Ropp_involutive. destruct (Rltd x x0); reflexivity. }
  assert (O1 : 1 - - i1 = 1 + i1) by ring. assert (O2 : 1 - - i2 = 1 + i2) by ring.
  destruct (Rlt_le_dec x0 x1) as [A|A]; [|destruct (Rlt_le_dec x2 x0) as [B|B]].
  - assert (J : i2 <> -1) by (apply I2; lra). pose proof (N0_A NN i1 i2 x0 x1 x2 P0 P1 L J A) as Q. rewrite O2 in Q. eexists. split; [exact Q|]. split; [apply V; exact Q|].
    assert (D : exp ((1 + i2) * ln (x2 / x0)) - exp ((1 + i2) * ln (x1 / x0)) <> 0). { apply exp_ln_neq; try pos; try lra. intros E. apply (f_equal (fun y => y * x0)) in E. unfold Rdiv in E. rewrite !Rmult_assoc, Rinv_l in E by lra. lra. }
    pose proof (broken_int_high (NN * (1 + i2) / x0 / (exp ((1 + i2) * ln (x2 / x0)) - exp ((1 + i2) * ln (x1 / x0)))) i1 i2 x0 x1 x2 P0 ltac:(lra) ltac:(lra) J) as R1.
    match type of R1 with is_RInt _ _ _ ?v => replace NN with v at 2 by (field; repeat split; auto; lra) end. exact R1.
  - assert (J : i1 <> -1) by (apply I1; lra). pose proof (N0_B NN i1 i2 x0 x1 x2 P0 P1 L J B) as Q. rewrite O1 in Q. eexists. split; [exact Q|]. split; [apply V; exact Q|].
    assert (D : exp ((1 + i1) * ln (x2 / x0)) - exp ((1 + i1) * ln (x1 / x0)) <> 0). { apply exp_ln_neq; try pos; try lra. intros E. apply (f_equal (fun y => y * x0)) in E. unfold Rdiv in E. rewrite !Rmult_assoc, Rinv_l in E by lra. lra. }
    pose proof (broken_int_low (NN * (1 + i1) / x0 / (exp ((1 + i1) * ln (x2 / x0)) - exp ((1 + i1) * ln (x1 / x0)))) i1 i2 x0 x1 x2 P0 ltac:(lra) ltac:(lra) ltac:(lra) J) as R1.
    match type of R1 with is_RInt _ _ _ ?v => replace NN with v at 2 by (field; repeat split; auto; lra) end. exact R1.
  - assert (J1 : i1 <> -1) by (apply I1; lra). assert (J2 : i2 <> -1) by (apply I2; lra). pose proof (N0_C NN i1 i2 x0 x1 x2 P0 P1 L J1 J2 A B) as Q. rewrite O1, O2 in Q. eexists. split; [exact Q|]. split; [apply V; exact Q|].
    assert (D := dC_pos (1 + i1) (1 + i2) x0 x1 x2 ltac:(lra) ltac:(lra) P1 P0 A B L).
    set (S0 := (1 - exp ((1 + i1) * ln (x1 / x0))) / (1 + i1) + (exp ((1 + i2) * ln (x2 / x0)) - 1) / (1 + i2)) in *.
    pose proof (broken_int_both (NN / x0 / S0) i1 i2 x0 x1 x2 P0 P1 A B J1 J2) as R1. fold S0 in R1.
    match type of R1 with is_RInt _ _ _ ?v => replace NN with v at 2 by (field; repeat split; auto; lra) end. exact R1.
Qed.
Lemma BPL3_form F1 i1 F2 i2 a1 b1 a2 b2 x : BPL3_admissible F1 i1 F2 i2 a1 b1 a2 b2 -> 0 < x ->
  BPL3_value [F1; i1; F2; i2; a1; b1; a2; b2] x = Some (broken (K3 F1 i1 F2 i2 a1 b1 a2 b2) i1 i2 (BPL3_break F1 i1 F2 i2 a1 b1 a2 b2) x).
Proof.
  intros A Hx. unfold broken. destruct (ltd_spec x (BPL3_break F1 i1 F2 i2 a1 b1 a2 b2)); [apply BPL3_below|apply BPL3_above]; auto; lra.
Qed.
Lemma shift K g x0 : 0 < x0 -> forall y, 0 < y -> K * x0 * exp ((1 + g) * ln (y / x0)) = K / exp (g * ln x0) * exp ((1 + g) * ln y).
Proof.
  intros P y Y. rewrite ln_div by auto. replace ((1 + g) * (ln y - ln x0)) with ((1 + g) * ln y + - (ln x0 + g * ln x0)) by ring.
  rewrite exp_plus, exp_Ropp, exp_plus, exp_ln by auto. field. split; [|lra]. apply Rgt_not_eq, exp_pos.
Qed.
Lemma BPL3_int1 F1 i1 F2 i2 a1 b1 a2 b2 : BPL3_admissible F1 i1 F2 i2 a1 b1 a2 b2 -> a1 < b1 -> b1 <= BPL3_break F1 i1 F2 i2 a1 b1 a2 b2 ->
  integral_is BPL3_value [F1; i1; F2; i2; a1; b1; a2; b2] a1 b1 F1.
Proof.
  intros A L B. pose proof A as (Ha1 & Hb1 & H1 & Ha2 & Hb2 & H2 & F & I1 & I2 & I & C). assert (P : 0 < BPL3_break F1 i1 F2 i2 a1 b1 a2 b2) by apply exp_pos.
  eapply integral_intro. { intros x H. apply BPL3_form; auto. apply (between a1 b1); auto. }
  pose proof (broken_int_low (K3 F1 i1 F2 i2 a1 b1 a2 b2) i1 i2 _ a1 b1 P Ha1 ltac:(lra) B I1) as Q.
  match type of Q with is_RInt _ _ _ ?v => assert (E : v = F1); [|rewrite E in Q; exact Q] end.
  pose proof (pd1_nz a1 b1 Ha1 Hb1 H1 i1 I1) as D. rewrite Rmult_minus_distr_l. rewrite !(shift _ i1) by auto. unfold K3. set (e := exp (i1 * ln (BPL3_break F1 i1 F2 i2 a1 b1 a2 b2))). assert (e <> 0) by (apply Rgt_not_eq, exp_pos).
  unfold pd in *. field. repeat split; auto; lra.
Qed.
Lemma BPL3_int2 F1 i1 F2 i2 a1 b1 a2 b2 : BPL3_admissible F1 i1 F2 i2 a1 b1 a2 b2 -> a2 < b2 -> BPL3_break F1 i1 F2 i2 a1 b1 a2 b2 <= a2 ->
  integral_is BPL3_value [F1; i1; F2; i2; a1; b1; a2; b2] a2 b2 F2.
Proof.
  intros A L B. pose proof A as (Ha1 & Hb1 & H1 & Ha2 & Hb2 & H2 & F & I1 & I2 & I & C). assert (P : 0 < BPL3_break F1 i1 F2 i2 a1 b1 a2 b2) by apply exp_pos.
  assert (K : ok3 a1 b1 a2 b2 F1 i1 F2 i2) by (repeat split; auto).
  eapply integral_intro. { intros x H. apply BPL3_form; auto. apply (between a2 b2); auto. }
  pose proof (pd2_nz a2 b2 Ha2 Hb2 H2 i2 I2) as D.
  apply (is_RInt_ext (fun x => F2 * (1 + i2) / pd (1 + i2) a2 b2 * exp (i2 * ln (x / 1)))).
  - intros x H. rewrite Rmin_left, Rmax_right in H by lra. unfold broken. rewrite ltd_f by lra.
    match goal with |- @eq _ ?a ?b => change (@eq R a b) end. transitivity (high3 a2 b2 x F1 i1 F2 i2).
    + unfold high3. replace (x / 1) with x by field. unfold Rdiv. ring.
    + symmetry. apply (high_eq a1 b1 a2 b2 x); auto; lra.
  - pose proof (power_int (F2 * (1 + i2) / pd (1 + i2) a2 b2) i2 1 a2 b2 Rlt_0_1 Ha2 Hb2 ltac:(lra)) as Q.
    match type of Q with is_RInt _ _ _ ?v => assert (E : v = F2); [|rewrite E in Q; exact Q] end.
    replace (a2 / 1) with a2 by field. replace (b2 / 1) with b2 by field. unfold pd in *. field. split; auto; lra.
Qed.
Lemma BPL3_own F1 i1 F2 i2 a1 b1 a2 b2 a b : BPL3_admissible F1 i1 F2 i2 a1 b1 a2 b2 -> 0 < a -> 0 < b -> Rmin a b <> BPL3_break F1 i1 F2 i2 a1 b1 a2 b2 \/ a = b ->
  exists v, BPL3_integral [F1; i1; F2; i2; a1; b1; a2; b2] a b = Some v /\
  integral_is BPL3_value [F1; i1; F2; i2; a1; b1; a2; b2] a b (BPL3_break F1 i1 F2 i2 a1 b1 a2 b2 * v).
Proof.
  intros A Pa Pb M. pose proof A as (Ha1 & Hb1 & H1 & Ha2 & Hb2 & H2 & F & I1 & I2 & I & C). assert (P : 0 < BPL3_break F1 i1 F2 i2 a1 b1 a2 b2) by apply exp_pos.
  assert (K : ok3 a1 b1 a2 b2 F1 i1 F2 i2) by (repeat split; auto).
  destruct (broken_integral_ok (K3 F1 i1 F2 i2 a1 b1 a2 b2) _ i1 i2 a b P Pa Pb I1 I2 M) as (v & Q1 & Q2). exists v. split.
  - unfold BPL3_integral. rewrite x0_ok by auto. rewrite n0_ok by (auto; apply exp_pos). exact Q1.
  - eapply integral_intro; [|exact Q2]. intros x H. apply BPL3_form; auto. apply (between a b); auto.
Qed.
Lemma BPL2_own NN i1 i2 x0 x1 x2 a b : bpl2_ok i1 i2 x0 x1 x2 -> i1 <> -1 -> i2 <> -1 -> 0 < a -> 0 < b -> Rmin a b <> x0 \/ a = b ->
  exists v, BPL2_integral [NN; i1; i2; x0; x1; x2] a b = Some v /\ integral_is BPL2_value [NN; i1; i2; x0; x1; x2] a b (x0 * v).
Proof.
  intros A I1 I2 Pa Pb M. destruct (BPL2_form NN _ _ _ _ _ A) as (n0 & Q & V & _). destruct A as (P0 & P1 & L & _).
  destruct (broken_integral_ok n0 x0 i1 i2 a b P0 Pa Pb I1 I2 M) as (v & Q1 & Q2). exists v. split.
  - unfold BPL2_integral. rewrite Q. replace (1 - - i1) with (1 + i1) by ring. replace (1 - - i2) with (1 + i2) by ring. exact Q1.
  - eapply integral_intro; [|exact Q2]. intros x H. apply V. apply (between a b); auto.
Qed.
Lemma PowerLaw2_own NN gamma x1 x2 a b : 0 < x1 -> 0 < x2 -> x1 <> x2 -> gamma <> -1 -> 0 < a -> 0 < b ->
  exists v, PowerLaw2_integral [NN; gamma; x1; x2] a b = Some v /\ integral_is PowerLaw2_value [NN; gamma; x1; x2] a b v.
Proof.
  intros P1 P2 N G A B. eexists. split; [|apply PowerLaw2_int; auto].
  unfold PowerLaw2_integral. assert (D := exp_ln_neq (1 + gamma) x1 x2 P1 P2 N ltac:(lra)). replace (1 - - gamma) with (1 + gamma) by ring. op. reflexivity.
Qed.
(** An integral has one value. *)
Lemma integral_unique V t a b v w : integral_is V t a b v -> integral_is V t a b w -> v = w.
Proof.
  intros (f & pr & A & <-) (g & pr' & B & <-). rewrite <- !RInt_Reals. apply RInt_ext. intros x H.
  assert (Some (f x) = Some (g x)) by (rewrite <- A, <- B by lra; reflexivity). congruence.
Qed.

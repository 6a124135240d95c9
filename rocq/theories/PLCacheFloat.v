(** C's doubles (IEEE binary64, rounding to nearest even) as the numbers of PLCacheModel. *)
From Coq Require Import Reals Lra ZArith.
From Flocq Require Import Core.Core IEEE754.BinarySingleNaN.
From Verif Require Import Base PLCacheModel PLCacheSpec.

Definition double := binary_float 53 1024.
Definition prec53 : Prec_gt_0 53 := eq_refl.
Definition prec_lt : Prec_lt_emax 53 1024 := eq_refl.
Definition of_Z (z : Z) : double := binary_normalize 53 1024 prec53 prec_lt mode_NE z 0 false.
Definition dplus : double -> double -> double := @Bplus 53 1024 prec53 prec_lt mode_NE.
Definition dmult : double -> double -> double := @Bmult 53 1024 prec53 prec_lt mode_NE.
(** log, exp and pow are those of the C library: any functions. *)
Definition doubles (log exp : double -> double) (pow : double -> double -> double) : numbers :=
  Numbers double (of_Z 0) (of_Z 1) (of_Z 2) (of_Z (-1)) dplus (@Bminus 53 1024 prec53 prec_lt mode_NE) dmult
    (@Bdiv 53 1024 prec53 prec_lt mode_NE) (@Bopp 53 1024) log exp pow (@Beqb 53 1024).

(** Not 0. or -0. *)
Definition nonzero (a : double) : Prop := match a with B754_zero _ => False | _ => True end.
(** Finite, at most 2^51 in absolute value. *)
Definition moderate (x : double) : Prop := is_finite x = true /\ (Rabs (B2R x) <= bpow radix2 51)%R.
(** The library function treats 0. and -0. alike. *)
Definition same_at_zeros (f : double -> double) : Prop := f (B754_zero false) = f (B754_zero true).

Lemma Beqb_cases (a b : double) : Beqb a b = true -> a = b \/ (exists s s', a = B754_zero s /\ b = B754_zero s').
Proof.
  destruct (is_finite a) eqn:Fa, (is_finite b) eqn:Fb.
  - rewrite Beqb_correct by auto. intros H. apply Req_bool_true_iff in H || (destruct (Req_bool_spec (B2R a) (B2R b)) as [H'|]; [clear H; rename H' into H|discriminate]).
    destruct a as [s| | |s m e Ha]; try discriminate; destruct b as [s'| | |s' m' e' Hb]; try discriminate.
    + right. eauto.
    + exfalso. symmetry in H. simpl in H. apply eq_0_F2R in H. destruct s'; discriminate.
    + exfalso. simpl in H. apply eq_0_F2R in H. destruct s; discriminate.
    + left. apply B2R_inj; auto.
  - destruct a as [s|s| |s m e Ha]; try discriminate; destruct b as [s'|[]| |s' m' e' Hb]; try discriminate; destruct s; try discriminate.
  - destruct a as [s|[]| |s m e Ha]; try discriminate; destruct b as [s'|s'| |s' m' e' Hb]; try discriminate; destruct s'; try discriminate.
  - destruct a as [s|[]| |s m e Ha]; try discriminate; destruct b as [s'|[]| |s' m' e' Hb]; try discriminate; auto.
Qed.
Lemma plus_zero (s s' : bool) : dplus (of_Z 1) (B754_zero s) = dplus (of_Z 1) (B754_zero s').
Proof. destruct s, s'; reflexivity. Qed.
Lemma double_laws log exp pow : same_at_zeros log -> same_at_zeros exp -> laws (doubles log exp pow) nonzero.
Proof.
  intros Hl He. constructor; simpl.
  - intros a b H. destruct (Beqb_cases a b H) as [->|(s & s' & -> & ->)]; auto. destruct s, s'; congruence.
  - intros a b H. destruct (Beqb_cases a b H) as [->|(s & s' & -> & ->)]; auto.
  - intros a b l H. destruct (Beqb_cases a b H) as [->|(s & s' & -> & ->)]; auto.
    destruct l as [z|z| |z m e Hm]; destruct s, s'; unfold dmult; simpl; auto; destruct z; simpl; congruence.
  - intros a b H. destruct (Beqb_cases a b H) as [->|(s & s' & -> & ->)]; auto.
  - intros a b e Ha Hb H. destruct (Beqb_cases a b H) as [->|(s & s' & -> & ->)]; auto. destruct Ha.
  - vm_compute. reflexivity.
Qed.
Lemma B2R_one : B2R (of_Z 1) = 1%R.
Proof. unfold of_Z. vm_compute. lra. Qed.
Lemma succ_moves (x : double) : moderate x -> Beqb (dplus x (of_Z 1)) x = false.
Proof.
  intros [Fx Hx]. pose proof (Bplus_correct 53 1024 prec53 prec_lt mode_NE x (of_Z 1) Fx eq_refl) as H. rewrite B2R_one in H.
  assert (Hy : (Rabs (B2R x + 1) <= bpow radix2 52)%R).
  { eapply Rle_trans; [apply Rabs_triang|]. rewrite Rabs_R1. replace (bpow radix2 52) with (bpow radix2 51 + bpow radix2 51)%R by (simpl; lra).
    apply Rplus_le_compat; auto. simpl. lra. }
  assert (V : Valid_exp (SpecFloat.fexp 53 1024)) by (apply (@fexp_correct 53 1024 prec53)).
  assert (M : Monotone_exp (SpecFloat.fexp 53 1024)) by (apply (@fexp_monotone 53 1024)).
  set (y := (B2R x + 1)%R) in *. set (r := round radix2 (SpecFloat.fexp 53 1024) (round_mode mode_NE) y) in *.
  assert (E : (Rabs (r - y) <= / 2)%R).
  { unfold r. simpl round_mode. eapply Rle_trans; [apply error_le_half_ulp; auto|]. rewrite <- (Rmult_1_r (/ 2)) at 2. apply Rmult_le_compat_l; [lra|].
    eapply Rle_trans; [apply (ulp_le radix2 (SpecFloat.fexp 53 1024) y (bpow radix2 52))|].
    - rewrite (Rabs_pos_eq (bpow radix2 52)); auto. apply bpow_ge_0.
    - rewrite ulp_bpow. simpl. lra. }
  rewrite Rlt_bool_true in H.
  - destruct H as (H1 & H2 & _). unfold dplus. rewrite Beqb_correct by auto. rewrite H1. apply Req_bool_false. intros C.
    rewrite C in E. unfold y in E. replace (B2R x - (B2R x + 1))%R with (- (1))%R in E by ring. rewrite Rabs_Ropp, Rabs_R1 in E. lra.
  - replace r with ((r - y) + y)%R by ring. eapply Rle_lt_trans; [apply Rabs_triang|].
    eapply Rle_lt_trans; [apply Rplus_le_compat; eauto|]. apply Rlt_trans with (bpow radix2 53). simpl. lra. apply bpow_lt. lia.
Qed.
Lemma succ_moves' (x : double) : moderate x -> Beqb x (dplus x (of_Z 1)) = false.
Proof.
  intros H. destruct (Beqb x (dplus x (of_Z 1))) eqn:E; auto. exfalso. pose proof (succ_moves x H) as S.
  destruct (Beqb_cases _ _ E) as [C|(s & s' & C & C')].
  - rewrite <- C in S, E. congruence.
  - rewrite C in C'. rewrite C, C' in S. destruct s, s'; discriminate.
Qed.
Lemma B2R_51 : B2R (of_Z (2 ^ 51)) = bpow radix2 51.
Proof.
  rewrite <- SF2R_B2SF. replace (B2SF (of_Z (2 ^ 51))) with (SpecFloat.S754_finite false 4503599627370496 (-1)) by (vm_compute; reflexivity).
  unfold SF2R, F2R. simpl. lra.
Qed.
Lemma moderate_check (x : double) : is_finite x && Bleb (Babs x) (of_Z (2 ^ 51)) = true -> moderate x.
Proof.
  intros H. apply andb_prop in H. destruct H as (F & H). split; auto. rewrite Bleb_correct in H by (rewrite ?is_finite_Babs; auto).
  rewrite B2R_Babs, B2R_51 in H. destruct (Rle_bool_spec (Rabs (B2R x)) (bpow radix2 51)); auto. discriminate.
Qed.

(** MultipleBrokenPowerLaw: value in closed form and derivatives (proofs of C35, C37). *)
From Coq Require Import Reals Lra.
From Coquelicot Require Import Coquelicot.
From Verif Require Import Base DerivSpec SpecFn SpecDom SpecTac SpecExpModel SpecExp SpecListModel.
Local Open Scope R_scope.

(** *** The bracketing position *)
Lemma ltd_spec a b : reflect (a < b) (Rltd a b).
Proof. unfold Rltd. destruct (Rlt_dec a b); constructor; auto. Qed.
Lemma inc_cons a l : increasing (a :: l) = true -> increasing l = true /\ forall j, (j < length l)%nat -> a < nth j l 0.
Proof.
  revert a. induction l as [|b l IH]; intros a H; [split; auto; simpl; lia|]. simpl in H. apply andb_true_iff in H. destruct H as [L H].
  destruct (ltd_spec a b); [|discriminate]. split; auto. intros [|j] Hj; simpl; auto. apply Rlt_trans with b; auto. apply IH; simpl in *; auto. lia.
Qed.
Lemma ub_spec l x : increasing l = true -> forall j, (j < length l)%nat -> (j < upper_bound l x)%nat <-> nth j l 0 <= x.
Proof.
  induction l as [|a l IH]; intros H j Hj; simpl in *; [lia|]. pose proof (inc_cons _ _ H) as [H1 H2]. destruct (ltd_spec x a) as [L|L].
  - split; [lia|]. intros Q. destruct j as [|j]; [lra|]. specialize (H2 j ltac:(lia)). lra.
  - destruct j as [|j]; [split; [intros _; lra|lia]|]. rewrite <- IH by (auto; lia). lia.
Qed.
Lemma ub_le l x : (upper_bound l x <= length l)%nat.
Proof. induction l as [|a l IH]; simpl; auto. destruct (Rltd x a); simpl; lia. Qed.
Lemma inc_lt l : increasing l = true -> forall i j, (i < j)%nat -> (j < length l)%nat -> nth i l 0 < nth j l 0.
Proof.
  induction l as [|a l IH]; intros H i j Hij Hj; simpl in Hj; [lia|]. pose proof (inc_cons _ _ H) as [H1 H2].
  destruct j as [|j]; [lia|]. destruct i as [|i]; simpl. apply H2; lia. apply IH; auto; lia.
Qed.
Lemma ub_lo l x j : increasing l = true -> (j < upper_bound l x)%nat -> nth j l 0 <= x.
Proof. intros H L. pose proof (ub_le l x). apply ub_spec; auto. lia. Qed.
Lemma ub_hi l x j : increasing l = true -> (upper_bound l x <= j)%nat -> (j < length l)%nat -> x < nth j l 0.
Proof. intros H L Hj. destruct (Rlt_le_dec x (nth j l 0)); auto. apply ub_spec in r; auto. lia. Qed.
Lemma ub_uniq l x k : increasing l = true -> (k <= length l)%nat -> (forall j, (j < k)%nat -> nth j l 0 <= x) -> (forall j, (k <= j < length l)%nat -> x < nth j l 0) -> upper_bound l x = k.
Proof.
  intros H L A B. pose proof (ub_le l x). destruct (Nat.lt_trichotomy (upper_bound l x) k) as [Q|[Q|Q]]; auto.
  - specialize (A (upper_bound l x) Q). apply ub_spec in A; auto. lia. lia.
  - specialize (B k ltac:(lia)). pose proof (ub_lo l x k H Q). lra.
Qed.
(** Near [x] the position is that of [x], or one less if [x] is on a break. *)
Lemma ub_near l x : increasing l = true -> locally x (fun y => upper_bound l y = upper_bound l x \/
  exists k, upper_bound l x = S k /\ upper_bound l y = k /\ nth k l 0 = x).
Proof.
  intros H. pose proof (ub_le l x) as Lk. remember (upper_bound l x) as k eqn:Ek.
  assert (U : locally x (fun y => (upper_bound l y <= k)%nat)).
  { destruct (Nat.eq_dec k (length l)) as [E|E]. apply filter_forall. intros y. rewrite E. apply ub_le.
    eapply filter_imp; [|exact (near_lt (fun y => y) (fun _ => nth k l 0) x ltac:(ctn) ltac:(ctn) (ub_hi l x k H ltac:(subst; lia) ltac:(lia)))].
    intros y Hy. simpl in Hy. destruct (le_lt_dec (upper_bound l y) k); auto. pose proof (ub_lo l y k H l0). lra. }
  assert (D : forall j, (j < k)%nat -> nth j l 0 < x -> locally x (fun y => (j < upper_bound l y)%nat)).
  { intros j Hj Lj. eapply filter_imp; [|exact (near_lt (fun _ => nth j l 0) (fun y => y) x ltac:(ctn) ltac:(ctn) Lj)]. intros y Hy. simpl in Hy.
    apply ub_spec; auto. lia. lra. }
  destruct k as [|k]; [eapply filter_imp; [|exact U]; intros y Hy; simpl in Hy; left; lia|].
  pose proof (ub_lo l x k H ltac:(lia)) as Lo. destruct Lo as [Lo|Lo].
  - eapply filter_imp; [|exact (near_and _ _ _ U (D k ltac:(lia) Lo))]. intros y [A B]. left. lia.
  - destruct k as [|k].
    + eapply filter_imp; [|exact U]. intros y Hy. simpl in Hy. destruct (Nat.eq_dec (upper_bound l y) 1); auto. right. exists 0%nat. repeat split; auto. lia.
    + assert (L : nth k l 0 < x) by (rewrite <- Lo; apply inc_lt; auto; lia).
      eapply filter_imp; [|exact (near_and _ _ _ U (D k ltac:(lia) L))]. intros y [A B]; simpl in A, B. destruct (Nat.eq_dec (upper_bound l y) (S (S k))); auto.
      right. exists (S k). repeat split; auto. lia.
Qed.
(** Gluing continuous pieces. *)
Lemma glue (f f1 f2 : R -> R) x : locally x (fun y => f y = f1 y \/ f y = f2 y) -> f1 x = f x -> f2 x = f x -> continuous f1 x -> continuous f2 x -> continuous f x.
Proof.
  intros L E1 E2 C1 C2 P HP.
  assert (P1 : locally (f1 x) P) by (rewrite E1; exact HP). assert (P2 : locally (f2 x) P) by (rewrite E2; exact HP).
  specialize (C1 P P1). specialize (C2 P P2). unfold filtermap in *.
  eapply filter_imp; [|apply filter_and; [exact L|apply filter_and; [exact C1|exact C2]]].
  intros y ([Ey|Ey] & A & B); rewrite Ey; auto.
Qed.

Lemma nth_upd (l : list R) : forall i j v, (i < length l)%nat -> nth j (upd l i v) 0 = if (j =? i)%nat then v else nth j l 0.
Proof. induction l as [|a l IH]; intros [|i] [|j] v H; simpl in *; try lia; auto. apply IH. lia. Qed.
Lemma nth_err (l : list R) j : (j < length l)%nat -> nth_error l j = Some (nth j l 0).
Proof. intros H. apply nth_error_nth'. exact H. Qed.

(** *** Closed form *)
Section MBPL.
Variable breaks : list R.
Hypothesis NE : (0 < length breaks)%nat.
Hypothesis INC : increasing breaks = true.
Hypothesis POS : forall j, (j < length breaks)%nat -> 0 < nth j breaks 0.
Let L (m : nat) : R := ln (nth m breaks 0 / nth 0 breaks 0).
Fixpoint sum1 (off : nat) (t : list R) (m j : nat) : R := match j with O => 0 | S j' => nth (m + off) t 0 * L m + sum1 off t (S m) j' end.
Lemma sum1_upd off t i v : (i < length t)%nat -> forall j m,
  sum1 off (upd t i v) m j = sum1 off t m j + (v - nth i t 0) * (if (m + off <=? i)%nat && (i <? m + off + j)%nat then L (i - off) else 0).
Proof.
  intros Hi. induction j as [|j IH]; intros m; simpl.
  - destruct (Nat.leb_spec (m + off) i); destruct (Nat.ltb_spec i (m + off + 0)); simpl; try lia; ring.
  - rewrite IH, nth_upd by auto. destruct (Nat.eqb_spec (m + off) i) as [E|E].
    + subst i. destruct (Nat.leb_spec (S m + off) (m + off)); [lia|]. destruct (Nat.leb_spec (m + off) (m + off)); [|lia].
      destruct (Nat.ltb_spec (m + off) (m + off + S j)); [|lia]. simpl. replace (m + off - off)%nat with m by lia. ring.
    + repeat match goal with |- context [(?a <=? ?b)%nat] => destruct (Nat.leb_spec a b) | |- context [(?a <? ?b)%nat] => destruct (Nat.ltb_spec a b) end; simpl andb; cbv iota; try lia; ring.
Qed.
Lemma factors_ok t : (length breaks + 2 <= length t)%nat -> forall j m acc, (m + j <= length breaks)%nat ->
  MBPL_factors breaks t (nth 0 breaks 0) acc m j = Some (acc * exp (sum1 1 t m j - sum1 2 t m j)).
Proof.
  intros Lt. pose proof (POS 0%nat NE) as P0. induction j as [|j IH]; intros m acc H; simpl.
  - rewrite Rminus_0_r, exp_0, Rmult_1_r. reflexivity.
  - rewrite !nth_err by lia. pose proof (POS m ltac:(lia)) as Pm. op. rewrite IH by lia. f_equal. unfold Rpower. fold (L m). rewrite Rmult_assoc, <- exp_plus. f_equal. f_equal. ring.
Qed.
Definition mexp (t : list R) (k : nat) (x : R) : R := sum1 1 t 1 (k - 1) - sum1 2 t 1 (k - 1) + nth (k + 1) t 0 * ln (x / nth 0 breaks 0).
Lemma MBPL_ok t x : (length breaks + 2 <= length t)%nat -> 0 < x ->
  MBPL_value breaks t x = Some (nth 0 t 0 * exp (mexp t (upper_bound breaks x) x)).
Proof.
  intros Lt Hx. unfold MBPL_value, MBPL_norm. pose proof (ub_le breaks x). rewrite !nth_err by lia. pose proof (POS 0%nat NE) as P0. op.
  unfold mexp, Rpower. destruct (Nat.leb_spec (upper_bound breaks x) 1) as [Q|Q].
  - replace (upper_bound breaks x - 1)%nat with 0%nat by lia. simpl. f_equal. f_equal. f_equal. ring.
  - rewrite factors_ok by lia. f_equal. rewrite Rmult_assoc, <- exp_plus. reflexivity.
Qed.
(** The exponent is affine in each parameter. *)
Definition mcoef (i k : nat) (x : R) : R :=
  (if (2 <=? i)%nat && (i <? 2 + (k - 1))%nat then L (i - 1) else 0) - (if (3 <=? i)%nat && (i <? 3 + (k - 1))%nat then L (i - 2) else 0)
  + (if (k + 1 =? i)%nat then ln (x / nth 0 breaks 0) else 0).
Lemma mexp_upd t i v k x : (i < length t)%nat -> mexp (upd t i v) k x = mexp t k x + (v - nth i t 0) * mcoef i k x.
Proof.
  intros Hi. unfold mexp, mcoef. rewrite !sum1_upd, nth_upd by auto. simpl Nat.add. destruct (Nat.eqb_spec (k + 1) i) as [E|E]; [subst i|]; ring.
Qed.
Lemma MBPL_partial t i x : (length breaks + 2 <= length t)%nat -> 0 < x -> (0 < i < length t)%nat ->
  partial_at (fun q => MBPL_value breaks q x) t i (nth 0 t 0 * exp (mexp t (upper_bound breaks x) x) * mcoef i (upper_bound breaks x) x).
Proof.
  intros Lt Hx Hi. eapply partial_intro; [apply nth_err; lia| |].
  - apply filter_forall. intros v. rewrite MBPL_ok by (rewrite ?upd_length; lia || auto). rewrite nth_upd by lia. destruct (Nat.eqb_spec 0 i); [lia|]. rewrite mexp_upd by lia. reflexivity.
  - auto_derive; auto. replace (nth i t 0 + - nth i t 0) with 0 by ring. rewrite Rmult_0_l, Rplus_0_r. ring.
Qed.
Lemma mcoef_0 k x : mcoef 0 k x = 0.
Proof. unfold mcoef. destruct (Nat.eqb_spec (k + 1) 0); [lia|]. simpl. ring. Qed.
Lemma MBPL_partial0 t x : (length breaks + 2 <= length t)%nat -> 0 < x ->
  partial_at (fun q => MBPL_value breaks q x) t 0 (exp (mexp t (upper_bound breaks x) x)).
Proof.
  intros Lt Hx. eapply partial_intro; [apply nth_err; lia| |].
  - apply filter_forall. intros v. rewrite MBPL_ok by (rewrite ?upd_length; lia || auto). rewrite nth_upd by lia. simpl (0 =? 0)%nat. cbv iota.
    rewrite mexp_upd by lia. rewrite mcoef_0, Rmult_0_r, Rplus_0_r. reflexivity.
  - auto_derive; auto. ring.
Qed.
Lemma L_diff a b : (a < length breaks)%nat -> (b < length breaks)%nat -> L a - L b = ln (nth a breaks 0 / nth b breaks 0).
Proof.
  intros Ha Hb. pose proof (POS _ Ha). pose proof (POS _ Hb). pose proof (POS _ NE). unfold L, Rdiv.
  rewrite !ln_mult, !ln_Rinv by (auto; apply Rinv_0_lt_compat; auto). ring.
Qed.
Lemma L_diff' x b : 0 < x -> (b < length breaks)%nat -> ln (x / nth 0 breaks 0) - L b = ln (x / nth b breaks 0).
Proof.
  intros Ha Hb. pose proof (POS _ Hb). pose proof (POS _ NE). unfold L, Rdiv.
  rewrite !ln_mult, !ln_Rinv by (auto; apply Rinv_0_lt_compat; auto). ring.
Qed.
Lemma L_0 : L 0 = 0.
Proof. unfold L. pose proof (POS _ NE). replace (_ / _) with 1 by (field; lra). apply ln_1. Qed.

(** The scale is missing for the first index below the first break and for an index below that of the energy's segment. *)
Definition MBPL_dom' (i : nat) (sc t : list R) (x : R) : Prop :=
  0 < x /\ (i < length breaks + 2)%nat /\ (i = 0%nat -> nth 0 t 0 <> 0) /\
  ((i = 1%nat -> x < nth 0 breaks 0 -> nth i sc 0 = 1)) /\
  ((2 <= i)%nat -> (i <= upper_bound breaks x)%nat -> nth i sc 0 = 1).
Lemma MBPL_derivs' : derivatives_okv (length breaks + 2 + length breaks) MBPL_dom' (MBPL_value breaks) (MBPL_deriv breaks).
Proof.
  intros sc p x i Ls Lp Hi (Hx & Hi2 & H0 & H1 & H2).
  assert (LT : length (trues sc p) = (length breaks + 2 + length breaks)%nat) by (rewrite trues_length; lia).
  pose proof (POS _ NE) as P0. pose proof (MBPL_ok (trues sc p) x ltac:(lia) Hx) as V.
  set (k := upper_bound breaks x) in *. pose proof (ub_le breaks x) as Lk. fold k in Lk.
  unfold MBPL_deriv. fold k. destruct (Nat.leb_spec (length breaks + 2) i); [lia|]. rewrite (nth_err breaks 0) by auto.
  assert (Hs : nth_error sc i = Some (nth i sc 0)) by (apply nth_err; lia).
  assert (T : nth i (trues sc p) 0 = nth i p 0 * nth i sc 0).
  { apply nth_error_nth. apply trues_nth; auto. apply nth_err. lia. }
  destruct i as [|[|m2]].
  - specialize (H0 eq_refl). rewrite T in H0. rewrite (nth_err p 0), V by lia.
    assert (Np : nth 0 p 0 <> 0) by (intros E; apply H0; rewrite E; ring).
    exists (exp (mexp (trues sc p) k x) * nth 0 sc 0). split.
    + rewrite rdiv_ok by auto. rewrite T. f_equal. field. auto.
    + apply (partial_scale (fun q => MBPL_value breaks q x)); auto. lia. apply MBPL_partial0; auto. lia.
  - pose proof (partial_scale (fun q => MBPL_value breaks q x) sc p 1%nat _ _ Hs ltac:(lia) (MBPL_partial (trues sc p) 1%nat x ltac:(lia) Hx ltac:(lia))) as B.
    fold k in B. unfold mcoef in B. simpl (2 <=? 1)%nat in B. simpl (3 <=? 1)%nat in B. cbv iota in B. simpl andb in B. cbv iota in B.
    destruct (ltd_spec x (nth 0 breaks 0)) as [Q|Q].
    + specialize (H1 eq_refl Q). rewrite H1 in B. assert (E : k = 0%nat) by (apply ub_uniq; [auto|lia|intros; lia|]; intros [|j] Hj; [exact Q|]; pose proof (inc_lt _ INC 0%nat (S j) ltac:(lia) ltac:(lia)); lra).
      rewrite V, E in *. simpl (0 + 1 =? 1)%nat in B. cbv iota in B. op. eexists. split; [reflexivity|]. eapply eq_rect; [exact B|]. ring.
    + assert (E : (0 < k)%nat) by (apply ub_spec; auto; lra). destruct (Nat.eqb_spec (k + 1) 1); [lia|]. exists 0. split; auto. eapply eq_rect; [exact B|]. ring.
  - pose proof (partial_scale (fun q => MBPL_value breaks q x) sc p (S (S m2)) _ _ Hs ltac:(lia) (MBPL_partial (trues sc p) (S (S m2)) x ltac:(lia) Hx ltac:(lia))) as B.
    fold k in B. set (A := nth 0 (trues sc p) 0 * exp (mexp (trues sc p) k x)) in *.
    assert (C : mcoef (S (S m2)) k x = if (S m2 <=? k)%nat then (if (S (S m2) <=? k)%nat then ln (nth (S m2) breaks 0 / nth m2 breaks 0) else ln (x / nth m2 breaks 0)) else 0).
    { unfold mcoef. replace (S (S m2) - 1)%nat with (S m2) by lia. replace (S (S m2) - 2)%nat with m2 by lia.
      change (2 <=? S (S m2))%nat with true. simpl andb.
      assert (Z : (if (3 <=? S (S m2))%nat && (S (S m2) <? 3 + (k - 1))%nat then L m2 else 0) = if (S (S m2) <? 3 + (k - 1))%nat then L m2 else 0).
      { destruct m2 as [|m2]; [rewrite L_0; simpl andb; destruct (2 <? 3 + (k - 1))%nat; reflexivity|reflexivity]. } simpl andb in Z. simpl Nat.add in Z |- *. rewrite Z.
      destruct (Nat.leb_spec (S m2) k) as [Q|Q].
      - destruct (Nat.leb_spec (S (S m2)) k) as [Q'|Q'].
        + destruct (Nat.ltb_spec (S (S m2)) (S (S (k - 1)))); [|lia]. destruct (Nat.ltb_spec (S (S m2)) (S (S (S (k - 1))))); [|lia]. destruct (Nat.eqb_spec (k + 1) (S (S m2))); [lia|].
          rewrite <- (L_diff (S m2) m2) by lia. ring.
        + destruct (Nat.ltb_spec (S (S m2)) (S (S (k - 1)))); [lia|]. destruct (Nat.ltb_spec (S (S m2)) (S (S (S (k - 1))))); [|lia]. destruct (Nat.eqb_spec (k + 1) (S (S m2))); [|lia].
          rewrite <- (L_diff' x m2) by (auto; lia). ring.
      - destruct (Nat.ltb_spec (S (S m2)) (S (S (k - 1)))); [lia|]. destruct (Nat.eqb_spec (k + 1) (S (S m2))); [lia|].
        destruct (Nat.ltb_spec (S (S m2)) (S (S (S (k - 1))))) as [W|W]; [|ring].
        assert (m2 = 0)%nat by lia. subst m2. rewrite L_0. ring. }
    rewrite C in B. rewrite (nth_err breaks m2) by lia. pose proof (POS m2 ltac:(lia)) as Pm.
    destruct (ltd_spec (nth m2 breaks 0) x) as [Q|Q]; simpl negb; cbv iota.
    + assert (Ek : (S m2 <= k)%nat) by (apply ub_spec; auto; lra || lia). destruct (Nat.leb_spec (S m2) k); [|lia].
      rewrite V. fold A. destruct (Nat.ltb_spec (S (S m2)) (S k)) as [W|W].
      * destruct (Nat.leb_spec (S (S m2)) k); [|lia]. rewrite (nth_err breaks (S m2)) by lia. pose proof (POS (S m2) ltac:(lia)) as Pm'. op.
        eexists. split; [reflexivity|]. rewrite (H2 ltac:(lia) ltac:(lia)) in B. eapply eq_rect; [exact B|]. ring.
      * destruct (Nat.leb_spec (S (S m2)) k); [lia|]. assert (Ek' : S k = S (S m2)) by lia. rewrite Ek'. op. rewrite Hs. eexists. split; [reflexivity|]. exact B.
    + exists 0. split; auto. destruct (Nat.leb_spec (S m2) k) as [W|W]; [|eapply eq_rect; [exact B|]; ring].
      assert (E : nth m2 breaks 0 = x). { apply Rle_antisym; [|lra]. apply ub_lo; auto. }
      destruct (Nat.leb_spec (S (S m2)) k) as [W'|W'].
      * exfalso. pose proof (inc_lt _ INC m2 (S m2) ltac:(lia) ltac:(lia)). pose proof (ub_lo breaks x (S m2) INC ltac:(lia)). lra.
      * rewrite E in B. replace (x / x) with 1 in B by (field; lra). rewrite ln_1 in B. eapply eq_rect; [exact B|]. ring.
Qed.

(** *** Continuity *)
Lemma sum1_S off t : forall j m, sum1 off t m (S j) = sum1 off t m j + nth (m + j + off) t 0 * L (m + j).
Proof.
  induction j as [|j IH]; intros m; [simpl; rewrite Nat.add_0_r; ring|].
  change (sum1 off t m (S (S j))) with (nth (m + off) t 0 * L m + sum1 off t (S m) (S j)). rewrite IH. simpl. replace (m + S j)%nat with (S (m + j)) by lia. simpl. ring.
Qed.
Lemma mexp_break t k : (k < length breaks)%nat -> mexp t (S k) (nth k breaks 0) = mexp t k (nth k breaks 0).
Proof.
  intros H. unfold mexp. fold (L k). destruct k as [|k].
  - rewrite L_0. simpl. ring.
  - replace (S (S k) - 1)%nat with (S k) by lia. replace (S k - 1)%nat with k by lia. rewrite !sum1_S. replace (1 + k)%nat with (S k) by lia.
    replace (S (S k) + 1)%nat with (S k + 2)%nat by lia. ring.
Qed.
Lemma MBPL_continuous t : (length breaks + 2 <= length t)%nat -> forall x, 0 < x ->
  continuous (fun y => nth 0 t 0 * exp (mexp t (upper_bound breaks y) y)) x.
Proof.
  intros Lt x Hx. pose proof (POS _ NE) as P0.
  assert (C : forall k, continuous (fun y => nth 0 t 0 * exp (mexp t k y)) x).
  { intros k. apply (ex_derive_continuous (fun y => nth 0 t 0 * exp (mexp t k y))). unfold mexp. auto_derive. repeat split; auto; try lra; apply Rdiv_lt_0_compat; auto. }
  remember (upper_bound breaks x) as k eqn:Ek.
  apply (glue _ (fun y => nth 0 t 0 * exp (mexp t k y)) (fun y => nth 0 t 0 * exp (mexp t (if Req_EM_T (nth (k - 1) breaks 0%R) x then k - 1 else k)%nat y))); auto.
  - eapply filter_imp; [|exact (ub_near breaks x INC)]. intros y [E|(k' & E1 & E2 & E3)]; rewrite <- Ek in *; [left; rewrite E; auto|].
    right. assert (Ekk : (k' = k - 1)%nat) by lia. rewrite Ekk in *. destruct (Req_EM_T _ x) as [e|e]; [|elim e; exact E3]. rewrite E2. reflexivity.
  - rewrite Ek. reflexivity.
  - rewrite <- Ek. destruct (Req_EM_T (nth (k - 1) breaks 0) x) as [E|E]; auto. destruct k as [|k']; auto. replace (S k' - 1)%nat with k' in * by lia.
    rewrite <- E. rewrite mexp_break; auto. pose proof (ub_le breaks x). lia.
Qed.
End MBPL.

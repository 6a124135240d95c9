From Coq Require Import Reals Lra.
From Verif Require Import Base EgridModel.
Local Open Scope R_scope.

Lemma ln10_pos : 0 < ln 10.
Proof. rewrite <- ln_1. apply ln_increasing; lra. Qed.

Lemma expand_loop_spec nee edisp slo shi : forall m i lo hi out,
  (1 <= i)%nat -> (i + m <= edisp + 1)%nat -> length out = (nee + 2 * edisp)%nat -> (1 <= nee)%nat ->
  exists out', expand_loop nee edisp slo shi i m lo hi out = Ok out' /\ length out' = (nee + 2 * edisp)%nat /\
    (forall k, (k < m)%nat -> nth (edisp - (i + k)) out' 0 = pow10 (lo + INR (S k) * slo) /\
                              nth (nee + edisp + (i + k) - 1) out' 0 = pow10 (hi + INR (S k) * shi)) /\
    (forall j, (edisp + 1 <= j + i)%nat -> (j + 1 < nee + edisp + i)%nat -> nth j out' 0 = nth j out 0).
Proof.
  induction m as [|m IH]; intros i lo hi out Hi Hm Hl Hn.
  - exists out. simpl. split; [auto|]. split; [auto|]. split; [|auto]. intros k Hk. lia.
  - cbn [expand_loop]. rewrite vec_set_ok by lia. cbn [obind]. rewrite vec_set_ok by (rewrite upd_length; lia). cbn [obind].
    destruct (IH (S i) (lo + slo) (hi + shi)
                (upd (upd out (edisp - i) (pow10 (lo + slo))) (nee + edisp + i - 1) (pow10 (hi + shi))))
      as (out' & E & L & H1 & H2); try lia.
    { rewrite !upd_length. auto. }
    exists out'. split; [exact E|]. split; [auto|]. split.
    + intros [|k] Hk.
      * rewrite Nat.add_0_r. split.
        -- rewrite H2 by lia. rewrite nth_upd_neq by lia. rewrite nth_upd_eq by lia. f_equal. simpl; lra.
        -- rewrite H2 by lia. rewrite nth_upd_eq by (rewrite upd_length; lia). f_equal. simpl; lra.
      * destruct (H1 k ltac:(lia)) as [A B]. replace (i + S k)%nat with (S i + k)%nat by lia.
        rewrite A, B. rewrite (S_INR (S k)). split; f_equal; lra.
    + intros j Hj Hj'. rewrite H2 by lia. rewrite !nth_upd_neq by lia. reflexivity.
Qed.

Lemma pow10_log10 x : 0 < x -> pow10 (log10 x) = x.
Proof.
  intros H. unfold pow10, log10. replace (ln x / ln 10 * ln 10) with (ln x) by (field; pose proof ln10_pos; lra).
  apply exp_ln; auto.
Qed.
Lemma pow10_plus a b : pow10 (a + b) = pow10 a * pow10 b.
Proof. unfold pow10. rewrite Rmult_plus_distr_r. apply exp_plus. Qed.
Lemma pow10_INR k s : pow10 (INR k * s) = pow10 s ^ k.
Proof.
  induction k as [|k IH]; simpl pow.
  - unfold pow10. simpl. rewrite !Rmult_0_l. apply exp_0.
  - rewrite S_INR, Rmult_plus_distr_r, Rmult_1_l, pow10_plus, IH. ring.
Qed.
Lemma pow10_step a b k : 0 < a -> 0 < b -> pow10 (log10 a + INR k * (log10 a - log10 b)) = a * (a / b) ^ k.
Proof.
  intros A B. rewrite pow10_plus, pow10_INR, pow10_log10 by auto. do 2 f_equal.
  replace (log10 a - log10 b) with (log10 a + - log10 b) by lra. rewrite pow10_plus, pow10_log10 by auto.
  unfold Rdiv. f_equal. unfold pow10, log10.
  replace (- (ln b / ln 10) * ln 10) with (- ln b) by (field; pose proof ln10_pos; lra).
  rewrite exp_Ropp, exp_ln by auto. reflexivity.
Qed.

Lemma nth_pos (l : list R) i : Forall (Rlt 0) l -> (i < length l)%nat -> 0 < nth i l 0.
Proof. intros F H. rewrite Forall_forall in F. apply F. now apply nth_In. Qed.

Lemma expand_ok energies n : (2 <= length energies)%nat -> Forall (Rlt 0) energies ->
  exists out, expand_energies energies n = Ok out /\
    length out = (length energies + 2 * n)%nat /\
    (forall k, (k < length energies)%nat -> nth (n + k) out 0 = nth k energies 0) /\
    (forall i, (1 <= i <= n)%nat ->
       nth (n - i) out 0 = nth 0 energies 0 * (nth 0 energies 0 / nth 1 energies 0) ^ i /\
       nth (n + length energies - 1 + i) out 0 =
         nth (length energies - 1) energies 0 *
           (nth (length energies - 1) energies 0 / nth (length energies - 2) energies 0) ^ i).
Proof.
  intros H F. unfold expand_energies. rewrite (proj2 (Nat.ltb_ge _ _) H).
  repeat (rewrite (vec_get_ok energies _ 0) by lia; cbn [obind]).
  set (lo := log10 _). set (hi := log10 (nth (length energies - 1) _ _)).
  destruct (expand_loop_spec (length energies) n (lo - log10 (nth 1 energies 0))
              (hi - log10 (nth (length energies - 2) energies 0)) n 1 lo hi
              (repeat 0 n ++ energies ++ repeat 0 n)) as (out & E & L & H1 & H2); try lia.
  { rewrite !app_length, !repeat_length. lia. }
  exists out. split; [exact E|]. split; [auto|]. split.
  - intros k Hk. rewrite H2 by lia. rewrite app_nth2; rewrite repeat_length; [|lia].
    replace (n + k - n)%nat with k by lia. now rewrite app_nth1.
  - intros i Hi. destruct (H1 (i - 1)%nat ltac:(lia)) as [A B].
    replace (1 + (i - 1))%nat with i in * by lia. replace (S (i - 1)) with i in * by lia.
    replace (n + length energies - 1 + i)%nat with (length energies + n + i - 1)%nat by lia.
    rewrite A, B. unfold lo, hi. split; apply pow10_step; apply nth_pos; auto; lia.
Qed.

Lemma expand_increasing energies n out : (2 <= length energies)%nat -> Forall (Rlt 0) energies ->
  (forall k, (S k < length energies)%nat -> nth k energies 0 < nth (S k) energies 0) ->
  expand_energies energies n = Ok out ->
  Forall (Rlt 0) out /\ forall k, (S k < length out)%nat -> nth k out 0 < nth (S k) out 0.
Proof.
  intros H F I E. destruct (expand_ok energies n H F) as (out' & E' & L & Hm & Hs).
  rewrite E in E'. injection E' as <-.
  set (N := length energies) in *.
  set (a := nth 0 energies 0) in *. set (b := nth 1 energies 0) in *.
  set (c := nth (N - 1) energies 0) in *. set (d := nth (N - 2) energies 0) in *.
  assert (Ha : 0 < a) by (apply nth_pos; auto; fold N; lia).
  assert (Hc : 0 < c) by (apply nth_pos; auto; fold N; lia).
  assert (Hb : a < b) by (apply I; lia).
  assert (Hd0 : 0 < d) by (apply nth_pos; auto; fold N; lia).
  assert (Hd : d < c). { unfold c, d. replace (N - 1)%nat with (S (N - 2)) by lia. apply I. lia. }
  assert (Rab : 0 < a / b < 1).
  { split; [apply Rdiv_lt_0_compat; lra|]. apply (Rmult_lt_reg_r b); [lra|]. field_simplify; lra. }
  assert (Rcd : 1 < c / d). { apply (Rmult_lt_reg_r d); [lra|]. field_simplify; lra. }
  (* values on the three parts, the end points of the input included *)
  assert (Lo : forall i, (i <= n)%nat -> nth (n - i) out 0 = a * (a / b) ^ i).
  { intros [|i] Hi.
    - replace (n - 0)%nat with (n + 0)%nat by lia. rewrite Hm by lia. simpl. unfold a. ring.
    - apply Hs. lia. }
  assert (Hi' : forall i, (i <= n)%nat -> nth (n + N - 1 + i) out 0 = c * (c / d) ^ i).
  { intros [|i] Hi.
    - replace (n + N - 1 + 0)%nat with (n + (N - 1))%nat by lia. rewrite Hm by lia. simpl. unfold c. ring.
    - apply Hs. lia. }
  split.
  - apply Forall_forall. intros x Hx. apply (In_nth _ _ 0) in Hx. destruct Hx as (j & Hj & <-).
    destruct (Nat.le_gt_cases j n).
    + replace j with (n - (n - j))%nat by lia. rewrite Lo by lia.
      apply Rmult_lt_0_compat; auto. apply pow_lt. lra.
    + destruct (Nat.lt_ge_cases j (n + N)).
      * replace j with (n + (j - n))%nat by lia. rewrite Hm by lia. apply nth_pos; auto. fold N. lia.
      * replace j with (n + N - 1 + (j + 1 - n - N))%nat by lia. rewrite Hi' by lia.
        apply Rmult_lt_0_compat; auto. apply pow_lt. lra.
  - intros k Hk. destruct (Nat.lt_ge_cases k n).
    + replace k with (n - (n - k))%nat at 1 by lia. replace (S k) with (n - (n - k - 1))%nat by lia.
      rewrite !Lo by lia. apply Rmult_lt_compat_l; auto.
      replace (n - k)%nat with (S (n - k - 1)) by lia. replace (S (n - k - 1) - 1)%nat with (n - k - 1)%nat by lia.
      generalize (n - k - 1)%nat. intros m. simpl.
      assert (0 < (a / b) ^ m) by (apply pow_lt; lra).
      rewrite <- (Rmult_1_l ((a / b) ^ m)) at 2. apply Rmult_lt_compat_r; lra.
    + destruct (Nat.lt_ge_cases (S k) (n + N)).
      * replace k with (n + (k - n))%nat at 1 by lia. replace (S k) with (n + S (k - n))%nat by lia.
        rewrite !Hm by lia. apply I. fold N. lia.
      * replace k with (n + N - 1 + (k + 1 - n - N))%nat at 1 by lia.
        replace (S k) with (n + N - 1 + S (k + 1 - n - N))%nat by lia.
        rewrite !Hi' by lia. apply Rmult_lt_compat_l; auto. simpl.
        assert (0 < (c / d) ^ (k + 1 - n - N)) by (apply pow_lt; lra).
        rewrite <- (Rmult_1_l ((c / d) ^ (k + 1 - n - N))) at 1. apply Rmult_lt_compat_r; lra.
Qed.

Lemma ratios_ok energies : Forall (Rlt 0) energies ->
  length (ratios energies) = (length energies - 1)%nat /\
  forall i, (S i < length energies)%nat -> nth i (ratios energies) 0 = ln (nth (S i) energies 0 / nth i energies 0).
Proof.
  induction energies as [|a [|b r] IH]; intros F; simpl; auto.
  - split; auto. intros i Hi. lia.
  - split; auto. intros i Hi. lia.
  - inversion F; subst. destruct IH as [L N]; auto. split.
    + simpl in *. lia.
    + intros [|i] Hi; auto. apply (N i). simpl. lia.
Qed.

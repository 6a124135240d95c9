(** PiecewisePowerLaw: value in closed form, derivatives and continuity (proofs of C33, C37). *)
From Coq Require Import Reals Lra.
From Coquelicot Require Import Coquelicot.
From Verif Require Import Base DerivSpec SpecFn SpecDom SpecTac SpecExpModel SpecExp SpecListModel SpecList.
Local Open Scope R_scope.

Lemma partial_scale0 (F : list R -> option R) sc p i s : nth_error sc i = Some s -> (i < length p)%nat -> partial_at F (trues sc p) i 0 -> partial_at (fun q => F (trues sc q)) p i 0.
Proof. intros A B C. pose proof (partial_scale F sc p i s 0 A B C) as H. now rewrite Rmult_0_l in H. Qed.
Section PPL.
Variable dec : bool.
Variable en : list R.
Hypothesis NE : (0 < length en)%nat.
Hypothesis INC : increasing en = true.
Hypothesis POS : forall j, (j < length en)%nat -> 0 < nth j en 0.
Let n := length en.
Let e (j : nat) := nth j en 0.
Definition Dk (t : list R) (k : nat) : R := if dec then nth (2 + k) t 0 else match k with 0%nat => 1 | _ => nth (2 + k) t 0 end.
Definition Cc (t : list R) : R := if dec then 1 else nth 2 t 0.
Lemma e_err j : (j < n)%nat -> nth_error en j = Some (e j).
Proof. apply nth_err. Qed.
Lemma e_lt i j : (i < j)%nat -> (j < n)%nat -> e i < e j.
Proof. apply inc_lt. exact INC. Qed.
Lemma e_le i j : (i <= j)%nat -> (j < n)%nat -> e i <= e j.
Proof. intros A B. destruct (Nat.eq_dec i j) as [->|N]; [lra|]. left. apply e_lt; lia. Qed.
Lemma e_pos j : (j < n)%nat -> 0 < e j.
Proof. apply POS. Qed.
Definition lq (j : nat) : R := ln (e (j + 1) / e j).
Lemma lq_pos j : (j + 1 < n)%nat -> 0 < lq j.
Proof.
  intros H. unfold lq. pose proof (e_lt j (j + 1) ltac:(lia) H). pose proof (e_pos j ltac:(lia)). rewrite <- ln_1. apply ln_increasing; [lra|].
  apply Rmult_lt_reg_r with (e j); auto. unfold Rdiv. rewrite Rmult_assoc, Rinv_l by lra. lra.
Qed.
Definition wq (j : nat) (x : R) : R := ln (x / e j) / lq j.
Lemma w_ok j x : (j + 1 < n)%nat -> 0 < x -> PPL_w x (e j) (e (j + 1)) = Some (wq j x).
Proof.
  intros H Hx. pose proof (e_pos j ltac:(lia)). pose proof (e_pos (j + 1) H). pose proof (lq_pos j H). unfold PPL_w. op.
  try (fold (lq j); rewrite rdiv_ok by lra). reflexivity.
Qed.
Lemma wq_0 j : (j + 1 < n)%nat -> wq j (e j) = 0.
Proof. intros H. pose proof (e_pos j ltac:(lia)). unfold wq. replace (e j / e j) with 1 by (field; lra). rewrite ln_1. unfold Rdiv. ring. Qed.
Lemma wq_1 j : (j + 1 < n)%nat -> wq j (e (j + 1)) = 1.
Proof. intros H. pose proof (lq_pos j H). unfold wq. fold (lq j). field. lra. Qed.

Lemma norm_ok t k : (n + 2 <= length t)%nat -> (k < n)%nat -> PPL_norm dec n t k = Some (Cc t * Dk t k).
Proof.
  intros Lt Hk. unfold PPL_norm, Cc, Dk. destruct (Nat.ltb_spec k n); [|lia]. rewrite !nth_err by lia. destruct dec.
  f_equal. ring. destruct k; f_equal; ring.
Qed.
Lemma index_ok t k : (n + 2 <= length t)%nat -> (k + 1 < n)%nat -> 0 < Dk t k -> 0 < Dk t (k + 1) -> PPL_index dec en t k = Some (ln (Dk t (k + 1) / Dk t k) / lq k).
Proof.
  intros Lt Hk P1 P2. unfold PPL_index. fold n. destruct (Nat.leb_spec n (k + 1)); [lia|].
  assert (E : (if (k =? 0)%nat && negb dec then Some 1 else nth_error t (k + 2)) = Some (Dk t k)).
  { unfold Dk. destruct dec; simpl negb; rewrite ?andb_false_r, ?andb_true_r. rewrite nth_err by lia. f_equal. f_equal. lia.
    destruct k; simpl Nat.eqb; cbv iota; auto. rewrite nth_err by lia. do 2 f_equal. lia. }
  rewrite E. assert (E1 : nth_error t (k + 3) = Some (Dk t (k + 1))).
  { unfold Dk. replace (2 + (k + 1))%nat with (k + 3)%nat by lia. rewrite nth_err by lia. destruct dec; auto. destruct (k + 1)%nat eqn:Q; auto. lia. }
  rewrite E1. rewrite !e_err by lia. pose proof (e_pos k ltac:(lia)). pose proof (e_pos (k + 1) Hk). pose proof (lq_pos k Hk). op. try (fold (lq k); rewrite rdiv_ok by lra). reflexivity.
Qed.

(** *** The value in the three regions *)
Lemma value_low t x : (n + 2 <= length t)%nat -> 0 < x -> x <= e 0 -> PPL_value dec en t x = Some (Cc t * Dk t 0 * exp (nth 0 t 0 * ln (x / e 0))).
Proof.
  intros Lt Hx H. unfold PPL_value. fold n. rewrite !e_err by lia. pose proof (e_pos 0 NE). destruct (ltd_spec (e 0) x); [lra|]. simpl negb. cbv iota.
  rewrite nth_err, norm_ok by lia. op. reflexivity.
Qed.
Lemma value_high t x : (n + 2 <= length t)%nat -> 0 < x -> e 0 < x -> e (n - 1) <= x -> PPL_value dec en t x = Some (Cc t * Dk t (n - 1) * exp (nth 1 t 0 * ln (x / e (n - 1)))).
Proof.
  intros Lt Hx H H1. unfold PPL_value. fold n. rewrite !e_err by lia. pose proof (e_pos (n - 1) ltac:(lia)). destruct (ltd_spec (e 0) x); [|lra]. destruct (ltd_spec x (e (n - 1))); [lra|]. simpl negb. cbv iota.
  rewrite nth_err, norm_ok by lia. op. reflexivity.
Qed.
Definition mid (t : list R) (j : nat) (x : R) : R := Cc t * Dk t j * exp (wq j x * (ln (Dk t (j + 1)) - ln (Dk t j))).
Lemma seg_bounds j x : e j <= x -> x < e (j + 1) -> (j + 1 < n)%nat -> upper_bound en x = S j.
Proof.
  intros A B H. apply ub_uniq; auto. change (S j <= n)%nat. lia.
  - intros i Hi. apply Rle_trans with (e j); auto. apply e_le; lia.
  - intros i Hi. apply Rlt_le_trans with (e (j + 1)); auto. apply e_le; unfold n; lia.
Qed.
Lemma value_mid t x j : (n + 2 <= length t)%nat -> 0 < x -> e 0 < x -> e j <= x -> x < e (j + 1) -> (j + 1 < n)%nat -> 0 < Dk t j -> 0 < Dk t (j + 1) ->
  PPL_value dec en t x = Some (mid t j x).
Proof.
  intros Lt Hx H A B Hj P1 P2. unfold PPL_value. fold n. rewrite (e_err 0), (e_err (n - 1)) by lia. destruct (ltd_spec (e 0) x); [|lra].
  destruct (ltd_spec x (e (n - 1))) as [_|Q]; [|elim Q; apply Rlt_le_trans with (e (j + 1)); auto; apply e_le; lia]. simpl negb. cbv iota.
  rewrite (seg_bounds j x) by auto. replace (S j - 1)%nat with j by lia. rewrite norm_ok, index_ok, e_err by (auto; lia). pose proof (e_pos j ltac:(lia)). op.
  unfold mid, wq, Rpower. f_equal. f_equal. f_equal. unfold Rdiv at 2. rewrite ln_mult, ln_Rinv by (auto; apply Rinv_0_lt_compat; auto). unfold Rdiv. ring.
Qed.
Lemma regions x : 0 < x -> x <= e 0 \/ e 0 < x /\ e (n - 1) <= x \/ e 0 < x /\ exists j, (j + 1 < n)%nat /\ e j <= x /\ x < e (j + 1).
Proof.
  intros Hx. destruct (Rle_lt_dec x (e 0)) as [A|A]; [auto|]. destruct (Rle_lt_dec (e (n - 1)) x) as [B|B]; [auto|]. right. right. split; auto.
  set (k := upper_bound en x). assert (K0 : (0 < k)%nat) by (apply ub_spec; auto; unfold e in A; lra).
  assert (Kn : (k < n)%nat). { destruct (le_lt_dec n k) as [Q|Q]; auto. assert (e (n - 1) <= x) by (apply ub_lo; auto; fold k; lia). lra. }
  exists (k - 1)%nat. split; [lia|]. split; [apply ub_lo; auto; fold k; lia|]. apply ub_hi; auto. fold k. lia. fold n. lia.
Qed.

(** *** Moving one parameter *)
Lemma Dk_upd t i v k : (i < length t)%nat -> Dk (upd t i v) k = if (i =? 2 + k)%nat && (dec || (0 <? k)%nat) then v else Dk t k.
Proof.
  intros H. unfold Dk. rewrite !nth_upd by auto. rewrite (Nat.eqb_sym i). destruct dec; simpl orb. rewrite andb_true_r. reflexivity.
  destruct k; simpl. rewrite andb_false_r. reflexivity. rewrite andb_true_r. reflexivity.
Qed.
Lemma Cc_upd t i v : (i < length t)%nat -> Cc (upd t i v) = if (i =? 2)%nat && negb dec then v else Cc t.
Proof. intros H. unfold Cc. rewrite nth_upd by auto. rewrite (Nat.eqb_sym i). destruct dec; simpl negb. rewrite andb_false_r. reflexivity. rewrite andb_true_r. reflexivity. Qed.

(** The share of node [k] in the logarithm of the value at [x]. *)
Definition share (k : nat) (x : R) (w : R) : Prop :=
  (x <= e 0 /\ w = if (k =? 0)%nat then 1 else 0) \/
  (e 0 < x /\ e (n - 1) <= x /\ w = if (k =? n - 1)%nat then 1 else 0) \/
  (e 0 < x /\ exists j, (j + 1 < n)%nat /\ e j <= x /\ x < e (j + 1) /\ w = if (k =? j)%nat then 1 - wq j x else if (k =? j + 1)%nat then wq j x else 0).
Definition allpos (t : list R) : Prop := forall j, (j < n)%nat -> 0 < Dk t j.
Lemma allpos_near t i t0 : (n + 2 <= length t)%nat -> (i < length t)%nat -> allpos t -> nth_error t i = Some t0 -> locally t0 (fun v => allpos (upd t i v)).
Proof.
  intros Lt Hi A Ht. destruct (le_lt_dec (n + 2) i) as [Q|Q].
  - apply filter_forall. intros v j Hj. rewrite Dk_upd by auto. destruct (Nat.eqb_spec i (2 + j)); [lia|]. simpl. auto.
  - destruct (le_lt_dec 2 i) as [Q2|Q2].
    + destruct (dec || (0 <? i - 2)%nat) eqn:Eb.
      * assert (E : Dk t (i - 2) = t0). { apply nth_error_nth with (d := 0) in Ht. unfold Dk. replace (2 + (i - 2))%nat with i by lia. rewrite Ht. destruct dec; auto. destruct (i - 2)%nat; auto. discriminate. }
        pose proof (A (i - 2)%nat ltac:(lia)) as P. rewrite E in P. eapply filter_imp; [|exact (near_pos _ P)]. intros v Hv j Hj. simpl in Hv. rewrite Dk_upd by auto. destruct (_ && _); auto.
      * apply filter_forall. intros v j Hj. rewrite Dk_upd by auto. destruct (Nat.eqb_spec i (2 + j)) as [E|]; [|simpl; auto]. subst i. replace (2 + j - 2)%nat with j in Eb by lia. rewrite Eb. simpl. auto.
    + apply filter_forall. intros v j Hj. rewrite Dk_upd by auto. destruct (Nat.eqb_spec i (2 + j)); [lia|]. simpl. auto.
Qed.
Lemma partial_node t k x w v0 : (n + 2 <= length t)%nat -> (k < n)%nat -> 0 < x -> allpos t -> dec || (0 <? k)%nat = true -> PPL_value dec en t x = Some v0 -> share k x w ->
  partial_at (fun q => PPL_value dec en q x) t (2 + k) (v0 * w / Dk t k).
Proof.
  intros Lt Hk Hx A Hd Hv Hw. assert (Ht : nth_error t (2 + k) = Some (Dk t k)).
  { rewrite nth_err by lia. unfold Dk. destruct dec; auto. destruct k; auto. discriminate. }
  pose proof (A k Hk) as P.
  assert (C0 : forall v, Cc (upd t (2 + k) v) = Cc t). { intros v. rewrite Cc_upd by lia. destruct (Nat.eqb_spec (2 + k) 2); auto. destruct dec; auto. assert (k = 0)%nat by lia. subst k. discriminate. }
  assert (D0 : forall v j, Dk (upd t (2 + k) v) j = if (k =? j)%nat then v else Dk t j).
  { intros v j. rewrite Dk_upd by lia. destruct (Nat.eqb_spec (2 + k) (2 + j)) as [E|E]; destruct (Nat.eqb_spec k j) as [E'|E']; try lia; auto. subst j. rewrite Hd. reflexivity. }
  assert (N0 : forall v i, (i < 2)%nat -> nth i (upd t (2 + k) v) 0 = nth i t 0). { intros v i Hi. rewrite nth_upd by lia. destruct (Nat.eqb_spec i (2 + k)); auto; lia. }
  pose proof (allpos_near t (2 + k) _ Lt ltac:(lia) A Ht) as NP.
  destruct Hw as [[H1 ->]|[(H1 & H2 & ->)|(H1 & j & Hj & H2 & H3 & ->)]].
  - rewrite value_low in Hv by auto. injection Hv as <-. eapply partial_intro; [exact Ht| |].
    + apply filter_forall. intros v. rewrite value_low by (rewrite ?upd_length; auto). rewrite C0, D0, N0 by lia. reflexivity.
    + destruct (Nat.eqb_spec k 0) as [->|E].
      * auto_derive; auto. field. lra.
      * auto_derive; auto. unfold Rdiv. ring.
  - rewrite value_high in Hv by auto. injection Hv as <-. eapply partial_intro; [exact Ht| |].
    + apply filter_forall. intros v. rewrite value_high by (rewrite ?upd_length; auto). rewrite C0, D0, N0 by lia. reflexivity.
    + destruct (Nat.eqb_spec k (n - 1)) as [E|E].
      * rewrite <- E. auto_derive; auto. field. lra.
      * auto_derive; auto. unfold Rdiv. ring.
  - pose proof (A j ltac:(lia)) as Pj. pose proof (A (j + 1)%nat ltac:(lia)) as Pj1.
    rewrite (value_mid t x j) in Hv by auto. injection Hv as <-. apply partial_intro with (v0 := Dk t k) (f := fun v => Cc t * (if (k =? j)%nat then v else Dk t j) * exp (wq j x * (ln (if (k =? j + 1)%nat then v else Dk t (j + 1)) - ln (if (k =? j)%nat then v else Dk t j)))); [exact Ht| |].
    + eapply filter_imp; [|exact NP]. intros v Hv. simpl in Hv. rewrite (value_mid _ x j) by (rewrite ?upd_length; auto; apply Hv; lia). unfold mid. rewrite C0, !D0. reflexivity.
    + unfold mid. destruct (Nat.eqb_spec k j) as [E|E]; [|destruct (Nat.eqb_spec k (j + 1)) as [E1|E1]].
      * subst j. destruct (Nat.eqb_spec k (k + 1)); [lia|]. auto_derive; auto. unfold Rminus. field. lra.
      * subst k. destruct (Nat.eqb_spec (j + 1) (j + 1)); [|lia]. auto_derive; auto. unfold Rminus. field. lra.
      * auto_derive; auto. unfold Rdiv. ring.
Qed.
(** *** What derivByParam selects *)
Lemma deriv_node sc p k x v : length sc = (n + 2 + n)%nat -> length p = (n + 2 + n)%nat -> (k < n)%nat -> 0 < x ->
  (dec = false -> nth 2 p 0 <> 0) -> nth (2 + k) p 0 <> 0 -> dec || (0 <? k)%nat = true -> (dec = true -> n = 1%nat -> x <> e 0) ->
  PPL_value dec en (trues sc p) x = Some v ->
  exists w, share k x w /\ PPL_deriv dec en (2 + k)%nat p sc x = Some (v / nth (2 + k) p 0 * w).
Proof.
  intros Ls Lp Hk Hx Hp0 Hpk Hd H1 Hv.
  assert (W : forall j, (j + 1 < n)%nat -> nth_error en j = Some (e j) /\ nth_error en (j + 1) = Some (e (j + 1)) /\ PPL_w x (e j) (e (j + 1)) = Some (wq j x)).
  { intros j Hj. rewrite !e_err by lia. repeat split. apply w_ok; auto. }
  unfold PPL_deriv. fold n. destruct (Nat.leb_spec (n + 2) (2 + k)); [lia|]. rewrite (e_err 0), (e_err (n - 1)) by lia. cbn [Nat.add].
  rewrite Hv. set (r := v / nth (S (S k)) p 0). change (nth (2 + k) p 0) with (nth (S (S k)) p 0) in *.
  assert (RA : (c <-? PPL_norm dec n p k; r0 <-? rdiv v c; (if dec then Some r0 else d0 <-? PPL_norm dec n p 0; Some (r0 * d0))) = Some r).
  { unfold PPL_norm. destruct (Nat.ltb_spec k n); [|lia]. destruct (Nat.ltb_spec 0 n); [|lia]. rewrite !(nth_err p) by lia. cbn [Nat.add]. destruct dec.
    - rewrite rdiv_ok by auto. reflexivity.
    - specialize (Hp0 eq_refl). destruct k as [|k]; [discriminate|]. rewrite rdiv_ok by (apply Rmult_integral_contrapositive_currified; auto). f_equal. unfold r. field. auto. }
  rewrite RA. rewrite (e_err k) by lia.
  (* up and down *)
  assert (UP : (0 < k)%nat -> (a <-? nth_error en (k - 1); w <-? PPL_w x a (e k); Some (r * w)) = Some (r * wq (k - 1) x)).
  { intros K. destruct (W (k - 1)%nat ltac:(lia)) as (A & _ & C). rewrite A. replace (k - 1 + 1)%nat with k in C by lia. rewrite C. reflexivity. }
  assert (DOWN : (k + 1 < n)%nat -> (b <-? nth_error en (k + 1); w <-? PPL_w x (e k) b; Some (r * (1 - w))) = Some (r * (1 - wq k x))).
  { intros K. destruct (W k ltac:(lia)) as (_ & B & C). rewrite B, C. reflexivity. }
  assert (KM : (0 < k)%nat -> nth_error en (k - 1) = Some (e (k - 1)) /\ e (k - 1) < e k).
  { intros K. split. apply e_err; lia. apply e_lt; lia. }
  assert (KP : (k + 1 < n)%nat -> nth_error en (k + 1) = Some (e (k + 1)) /\ e k < e (k + 1)).
  { intros K. split. apply e_err; lia. apply e_lt; lia. }
  pose proof (e_le 0 k ltac:(lia) Hk) as G0. pose proof (e_le k (n - 1) ltac:(lia) ltac:(lia)) as G1.
  destruct k as [|k0].
  - destruct dec; [clear Hd|discriminate]. change (0 =? 0)%nat with true. cbn [andb orb].
    destruct (Nat.eq_dec n 1) as [N1|N1].
    + specialize (H1 eq_refl N1). rewrite N1 in *. change (1 - 1)%nat with 0%nat in *. change (0 =? 0)%nat with true. cbn [andb orb].
      exists 1. split.
      * destruct (Rlt_le_dec x (e 0)) as [Q|Q]; [left; split; [lra|reflexivity]|]. right. left. repeat split; try lra; rewrite N1; [exact Q|reflexivity].
      * destruct (ltd_spec x (e 0)); cbn [orb]; [f_equal; ring|]. destruct (ltd_spec (e 0) x); [f_equal; ring|lra].
    + destruct (KP ltac:(lia)) as [E1 L1]. change (0 + 1)%nat with 1%nat in *. rewrite E1. destruct (Nat.eqb_spec 0 (n - 1)); [lia|]. cbn [andb orb]. rewrite orb_false_r.
      destruct (W 0%nat ltac:(lia)) as (_ & _ & W0). change (0 + 1)%nat with 1%nat in W0. rewrite W0. pose proof (e_le 1 (n - 1) ltac:(lia) ltac:(lia)) as G2.
      destruct (ltd_spec x (e 0)) as [A|A].
      { exists 1. split; [left; split; [lra|reflexivity]|f_equal; ring]. }
      destruct (ltd_spec (e 1) x) as [B|B]; cbn [negb].
      * exists 0. split.
        -- destruct (regions x Hx) as [Q|[(Q & Q')|(Q & j & Q1 & Q2 & Q3)]]; [lra|right; left; repeat split; auto; destruct (Nat.eqb_spec 0 (n - 1)); auto; lia|].
           right. right. split; auto. exists j. repeat split; auto. destruct (Nat.eqb_spec 0 j) as [<-|]; [change (0 + 1)%nat with 1%nat in Q3; lra|]. destruct (Nat.eqb_spec 0 (j + 1)); [lia|reflexivity].
        -- destruct (ltd_spec x (e 1)); [lra|]. rewrite !andb_false_r. f_equal. ring.
      * destruct (Rle_lt_dec (e 1) x) as [C|C].
        -- assert (x = e 1) by lra. subst x. change (e 1) with (e (0 + 1)) at 2; rewrite (wq_1 0) by lia. exists 0. split; [|f_equal; ring].
           destruct (Nat.eq_dec n 2) as [N2|N2].
           ++ right. left. repeat split; auto. rewrite N2. simpl. lra. destruct (Nat.eqb_spec 0 (n - 1)); auto; lia.
           ++ right. right. split; auto. exists 1%nat. repeat split; try lia; try lra. apply e_lt; lia.
        -- destruct (Req_dec x (e 0)) as [D|D].
           ++ rewrite D, wq_0 by lia. exists 1. split; [left; split; [lra|reflexivity]|f_equal; ring].
           ++ exists (1 - wq 0 x). split; auto. right. right. split; [lra|]. exists 0%nat. repeat split; try lia; try lra. exact C.
  - set (k := S k0) in *. assert (K : (0 < k)%nat) by (unfold k; lia). destruct (KM K) as [E1 L1]. rewrite !E1. specialize (UP K). rewrite E1 in UP. rewrite !UP.
    change (k =? 0)%nat with false. cbn [andb orb]. change (0 <? k)%nat with true. cbn [andb].
    pose proof (e_le 0 (k - 1) ltac:(lia) ltac:(lia)) as G2.
    assert (LAST : exists w, share k x w /\
      (if (k =? n - 1)%nat && Rltd (e (n - 1)) x then Some r
       else if (k =? n - 1)%nat && Rltd (e (k - 1)) x then Some (r * wq (k - 1) x)
       else if negb (Rltd x (e k)) && (k <? n - 1)%nat && match nth_error en (k + 1) with Some b => Rltd x b | None => false end
            then b <-? nth_error en (k + 1); w <-? PPL_w x (e k) b; Some (r * (1 - w))
            else if Rltd (e (k - 1)) x && Rltd x (e k) then Some (r * wq (k - 1) x) else Some 0) = Some (r * w)).
    { destruct (regions x Hx) as [Q|[(Q & Q')|(Q & j & Q1 & Q2 & Q3)]].
      - exists 0. split; [left; split; [lra|reflexivity]|].
        destruct (ltd_spec (e (n - 1)) x); [lra|]. destruct (ltd_spec (e (k - 1)) x); [lra|]. destruct (ltd_spec x (e k)); [|lra]. rewrite !andb_false_r. cbn [andb negb]. f_equal. ring.
      - destruct (Nat.eqb_spec k (n - 1)) as [E|E]; cbn [andb].
        + exists 1. split; [right; left; repeat split; auto; destruct (Nat.eqb_spec k (n - 1)); auto; lia|].
          destruct (ltd_spec (e (n - 1)) x); [f_equal; ring|]. destruct (ltd_spec (e (k - 1)) x); [|rewrite E in *; lra].
          assert (x = e k) by (rewrite E; lra). subst x. replace (e k) with (e (k - 1 + 1)) at 1 by (f_equal; lia). rewrite wq_1 by lia. reflexivity.
        + exists 0. split; [right; left; repeat split; auto; destruct (Nat.eqb_spec k (n - 1)); auto; lia|].
          destruct (KP ltac:(lia)) as [E2 L2]. rewrite E2. pose proof (e_le (k + 1) (n - 1) ltac:(lia) ltac:(lia)). destruct (ltd_spec x (e (k + 1))); [lra|]. destruct (ltd_spec x (e k)); [lra|]. rewrite !andb_false_r. f_equal. ring.
      - pose proof (e_le (j + 1) (n - 1) ltac:(lia) ltac:(lia)) as G3. destruct (ltd_spec (e (n - 1)) x); [lra|]. rewrite andb_false_r.
        exists (if (k =? j)%nat then 1 - wq j x else if (k =? j + 1)%nat then wq j x else 0). split.
        { right. right. split; auto. exists j. repeat split; auto. }
        destruct (Nat.eqb_spec k j) as [E|E]; [|destruct (Nat.eqb_spec k (j + 1)) as [E'|E']].
        + subst j. destruct (Nat.eqb_spec k (n - 1)); [lia|]. cbn [andb]. destruct (ltd_spec x (e k)); [lra|]. destruct (Nat.ltb_spec k (n - 1)); [|lia]. rewrite (DOWN Q1).
          destruct (KP Q1) as [E2 L2]. rewrite E2. destruct (ltd_spec x (e (k + 1))); [|lra]. reflexivity.
        + rewrite <- E' in Q3. assert (Ej : (k - 1 = j)%nat) by lia. rewrite Ej. destruct (ltd_spec x (e k)); [|lra]. cbn [negb andb]. rewrite andb_true_r.
          destruct (ltd_spec (e j) x) as [B|B]; [rewrite andb_true_r; destruct (k =? n - 1)%nat; reflexivity|]. rewrite andb_false_r. assert (x = e j) by lra. subst x. rewrite wq_0 by lia. f_equal. ring.
        + destruct (le_lt_dec j k) as [J|J].
          * assert (e (j + 1) <= e (k - 1)) by (apply e_le; lia). destruct (ltd_spec (e (k - 1)) x); [lra|]. destruct (ltd_spec x (e k)); [|lra]. rewrite andb_false_r. cbn [andb negb]. f_equal. ring.
          * assert (e (k + 1) <= e j) by (apply e_le; lia). destruct (KP ltac:(lia)) as [E2 L2]. rewrite E2. destruct (Nat.eqb_spec k (n - 1)); [lia|]. destruct (ltd_spec x (e (k + 1))); [lra|]. destruct (ltd_spec x (e k)); [lra|].
            rewrite !andb_false_r. cbn [andb]. f_equal. ring. }
    destruct dec; exact LAST.
Qed.

(** *** All derivatives *)
(** IndexL and IndexH only with unit scale where they matter; decoupled with one energy not at that energy. *)
Definition PPL_dom' (i : nat) (sc t : list R) (x : R) : Prop :=
  0 < x /\ (i < n + 2)%nat /\ (forall k, (k < n)%nat -> (dec = true \/ 0 < k)%nat -> 0 < nth (2 + k) t 0) /\ (dec = false -> (2 <= i)%nat -> nth 2 t 0 <> 0) /\
  (i = 0%nat -> x < e 0 -> nth i sc 0 = 1) /\ (i = 1%nat -> e (n - 1) < x -> nth i sc 0 = 1) /\
  (i = 2%nat -> dec = true -> n = 1%nat -> x <> e 0).
Lemma value_some t x : (n + 2 <= length t)%nat -> 0 < x -> allpos t -> exists v, PPL_value dec en t x = Some v.
Proof.
  intros Lt Hx A. destruct (regions x Hx) as [Q|[(Q & Q')|(Q & j & Q1 & Q2 & Q3)]]; eexists.
  - apply value_low; auto.
  - apply value_high; auto.
  - apply (value_mid t x j); auto; apply A; lia.
Qed.
Lemma PPL_derivs' : derivatives_okv (n + 2 + n) PPL_dom' (PPL_value dec en) (PPL_deriv dec en).
Proof.
  intros sc p x i Ls Lp Hi (Hx & Hi2 & HD & H2 & HL & HH & H1).
  assert (LT : length (trues sc p) = (n + 2 + n)%nat) by (rewrite trues_length; lia).
  assert (Hs : nth_error sc i = Some (nth i sc 0)) by (apply nth_err; lia).
  assert (T : forall j, (j < n + 2)%nat -> nth j (trues sc p) 0 = nth j p 0 * nth j sc 0).
  { intros j Hj. apply nth_error_nth. apply trues_nth; apply nth_err; lia. }
  assert (A : allpos (trues sc p)).
  { intros j Hj. unfold Dk. destruct dec eqn:Ed; [apply HD; auto|]. destruct j; [lra|]. apply HD; auto. right. lia. }
  destruct (value_some (trues sc p) x ltac:(lia) Hx A) as [v Hv].
  destruct i as [|[|k]].
  - clear H1 HH. unfold PPL_deriv. fold n. destruct (Nat.leb_spec (n + 2) 0); [lia|]. rewrite (e_err 0), (e_err (n - 1)), Hv by lia. pose proof (e_pos 0 NE) as P0.
    destruct (ltd_spec x (e 0)) as [Q|Q].
    + specialize (HL eq_refl Q). rewrite value_low in Hv by (auto; lra || lia). injection Hv as <-. op. eexists. split; [reflexivity|].
      replace (Cc (trues sc p) * Dk (trues sc p) 0 * exp (nth 0 (trues sc p) 0 * ln (x / e 0)) * ln (x / e 0)) with (Cc (trues sc p) * Dk (trues sc p) 0 * exp (nth 0 (trues sc p) 0 * ln (x / e 0)) * ln (x / e 0) * nth 0 sc 0) by (rewrite HL; ring).
      apply (partial_scale (fun q => PPL_value dec en q x)); auto. lia. eapply partial_intro; [apply nth_err; lia| |].
      * apply filter_forall. intros w. rewrite value_low by (rewrite ?upd_length; auto; lra || lia). rewrite Cc_upd, Dk_upd, nth_upd by lia. cbn [Nat.eqb andb]. reflexivity.
      * auto_derive; auto. ring.
    + exists 0. split; auto. apply (partial_scale0 (fun q => PPL_value dec en q x) sc p 0%nat _ Hs ltac:(lia)).
      destruct (regions x Hx) as [R0|[(R0 & R1)|(R0 & j & R1 & R2 & R3)]].
      * assert (x = e 0) by lra. subst x. eapply partial_intro; [apply nth_err; lia| |].
        -- apply filter_forall. intros w. rewrite value_low by (rewrite ?upd_length; auto; lra || lia). rewrite Cc_upd, Dk_upd, nth_upd by lia. cbn [Nat.eqb andb]. reflexivity.
        -- auto_derive; auto. replace (e 0 / e 0) with 1 by (field; lra). rewrite ln_1. ring.
      * eapply partial_intro; [apply nth_err; lia| |].
        -- apply filter_forall. intros w. rewrite value_high by (rewrite ?upd_length; auto; lra || lia). rewrite Cc_upd, Dk_upd, nth_upd by lia. cbn [Nat.eqb andb]. reflexivity.
        -- auto_derive; first [ring | repeat split; auto; apply A; lia].
      * eapply partial_intro; [apply nth_err; lia| |].
        -- apply filter_forall. intros w. rewrite (value_mid _ x j) by (rewrite ?upd_length; auto; try lia; rewrite Dk_upd by lia; cbn [Nat.eqb andb]; apply A; lia). unfold mid. rewrite Cc_upd, !Dk_upd by lia. cbn [Nat.eqb andb]. reflexivity.
        -- auto_derive; first [ring | repeat split; auto; apply A; lia].
  - unfold PPL_deriv. fold n. destruct (Nat.leb_spec (n + 2) 1); [lia|]. rewrite (e_err 0), (e_err (n - 1)), Hv by lia. pose proof (e_pos (n - 1) ltac:(lia)) as P0. pose proof (e_le 0 (n - 1) ltac:(lia) ltac:(lia)) as G0.
    destruct (ltd_spec (e (n - 1)) x) as [Q|Q].
    + specialize (HH eq_refl Q). rewrite value_high in Hv by (auto; lra || lia). injection Hv as <-. op. eexists. split; [reflexivity|].
      set (V := Cc (trues sc p) * Dk (trues sc p) (n - 1) * exp (nth 1 (trues sc p) 0 * ln (x / e (n - 1)))). replace (V * ln (x / e (n - 1))) with (V * ln (x / e (n - 1)) * nth 1 sc 0) by (rewrite HH; ring).
      apply (partial_scale (fun q => PPL_value dec en q x)); auto. lia. eapply partial_intro; [apply nth_err; lia| |].
      * apply filter_forall. intros w. rewrite value_high by (rewrite ?upd_length; auto; lra || lia). rewrite Cc_upd, Dk_upd, nth_upd by lia. cbn [Nat.eqb andb]. reflexivity.
      * auto_derive; auto. unfold V. ring.
    + exists 0. split; auto. apply (partial_scale0 (fun q => PPL_value dec en q x) sc p 1%nat _ Hs ltac:(lia)).
      destruct (regions x Hx) as [R0|[(R0 & R1)|(R0 & j & R1 & R2 & R3)]].
      * eapply partial_intro; [apply nth_err; lia| |].
        -- apply filter_forall. intros w. rewrite value_low by (rewrite ?upd_length; auto; lra || lia). rewrite Cc_upd, Dk_upd, nth_upd by lia. cbn [Nat.eqb andb]. reflexivity.
        -- auto_derive; first [ring | repeat split; auto; apply A; lia].
      * assert (x = e (n - 1)) by lra. subst x. eapply partial_intro; [apply nth_err; lia| |].
        -- apply filter_forall. intros w. rewrite value_high by (rewrite ?upd_length; auto; lra || lia). rewrite Cc_upd, Dk_upd, nth_upd by lia. cbn [Nat.eqb andb]. reflexivity.
        -- auto_derive; auto. replace (e (n - 1) / e (n - 1)) with 1 by (field; lra). rewrite ln_1. ring.
      * eapply partial_intro; [apply nth_err; lia| |].
        -- apply filter_forall. intros w. rewrite (value_mid _ x j) by (rewrite ?upd_length; auto; try lia; rewrite Dk_upd by lia; cbn [Nat.eqb andb]; apply A; lia). unfold mid. rewrite Cc_upd, !Dk_upd by lia. cbn [Nat.eqb andb]. reflexivity.
        -- auto_derive; first [ring | repeat split; auto; apply A; lia].
  - assert (P0 : dec = false -> nth 2 p 0 <> 0). { intros Ed E. apply (H2 Ed ltac:(lia)). rewrite T, E by lia. ring. }
    destruct (dec || (0 <? k)%nat) eqn:Ed.
    + assert (Pk : 0 < nth (2 + k) (trues sc p) 0). { apply HD; [lia|]. apply orb_true_iff in Ed. destruct Ed as [Ed|Ed]; auto. right. now apply Nat.ltb_lt in Ed. }
      assert (Np : nth (2 + k) p 0 <> 0 /\ nth (2 + k) sc 0 <> 0). { rewrite T in Pk by lia. split; intros E; rewrite E in Pk; lra. }
      assert (H1' : dec = true -> n = 1%nat -> x <> e 0). { intros A1 A2. apply H1; auto. assert (k = 0)%nat by lia. subst k. reflexivity. }
      destruct (deriv_node sc p k x v) as (w & Hw & HDv); auto; try lia; try tauto.
      exists (v / nth (2 + k) p 0 * w). split; auto.
      replace (v / nth (2 + k) p 0 * w) with (v * w / Dk (trues sc p) k * nth (2 + k) sc 0).
      * apply (partial_scale (fun q => PPL_value dec en q x)); auto. lia. apply partial_node; auto; lia.
      * replace (Dk (trues sc p) k) with (nth (2 + k) p 0 * nth (2 + k) sc 0); [field; tauto|]. rewrite <- T by lia. unfold Dk. destruct dec; auto. destruct k; auto. discriminate.
    + apply orb_false_iff in Ed. destruct Ed as [Ed Ek]. apply Nat.ltb_ge in Ek. assert (k = 0)%nat by lia. subst k. specialize (P0 Ed).
      specialize (H2 Ed ltac:(lia)). rewrite T in H2 by lia. assert (Ns : nth 2 sc 0 <> 0) by (intros E; apply H2; rewrite E; ring).
      assert (E : PPL_deriv dec en 2%nat p sc x = Some (v / nth 2 p 0)).
      { unfold PPL_deriv. fold n. destruct (Nat.leb_spec (n + 2) 2); [lia|]. rewrite (e_err 0), (e_err (n - 1)), Hv by lia. rewrite Ed. cbn [Nat.eqb]. unfold PPL_norm. destruct (Nat.ltb_spec 0 n); [|lia]. rewrite nth_err by lia. rewrite rdiv_ok by auto. reflexivity. }
      exists (v / nth 2 p 0). split; auto. replace (v / nth 2 p 0) with (v / (nth 2 p 0 * nth 2 sc 0) * nth 2 sc 0) by (field; auto).
      apply (partial_scale (fun q => PPL_value dec en q x)); auto. lia. rewrite <- T by lia.
      assert (Cu : forall w, Cc (upd (trues sc p) 2 w) = w) by (intros w; rewrite Cc_upd, Ed by lia; reflexivity).
      assert (Du : forall w j, Dk (upd (trues sc p) 2 w) j = Dk (trues sc p) j). { intros w j. rewrite Dk_upd, Ed by lia. destruct j; auto. }
      assert (C2 : Cc (trues sc p) = nth 2 (trues sc p) 0) by (unfold Cc; rewrite Ed; reflexivity). assert (N2 : nth 2 (trues sc p) 0 <> 0) by (rewrite T by lia; auto).
      destruct (regions x Hx) as [R0|[(R0 & R1)|(R0 & j & R1 & R2 & R3)]].
      * rewrite value_low in Hv by (auto; lia). injection Hv as <-. rewrite C2. eapply partial_intro; [apply nth_err; lia| |].
        -- apply filter_forall. intros w. rewrite value_low by (rewrite ?upd_length; auto; lra || lia). rewrite Cu, Du, nth_upd by lia. cbn [Nat.eqb]. reflexivity.
        -- auto_derive; [repeat split; auto; apply A; lia|field; auto].
      * rewrite value_high in Hv by (auto; lia). injection Hv as <-. rewrite C2. eapply partial_intro; [apply nth_err; lia| |].
        -- apply filter_forall. intros w. rewrite value_high by (rewrite ?upd_length; auto; lra || lia). rewrite Cu, Du, nth_upd by lia. cbn [Nat.eqb]. reflexivity.
        -- auto_derive; [repeat split; auto; apply A; lia|field; auto].
      * rewrite (value_mid _ x j) in Hv by (auto; try lia; apply A; lia). injection Hv as <-. unfold mid. rewrite C2. apply partial_intro with (v0 := nth 2 (trues sc p) 0) (f := fun w => w * Dk (trues sc p) j * exp (wq j x * (ln (Dk (trues sc p) (j + 1)) - ln (Dk (trues sc p) j)))); [apply nth_err; lia| |].
        -- apply filter_forall. intros w. rewrite (value_mid _ x j) by (rewrite ?upd_length; auto; try lia; rewrite Du; apply A; lia). unfold mid. rewrite Cu, !Du. reflexivity.
        -- auto_derive; [repeat split; auto; apply A; lia|field; auto].
Qed.
(** *** Continuity *)
Definition curve (t : list R) (x : R) : R :=
  if Rltd (e 0) x then (if Rltd x (e (n - 1)) then mid t (upper_bound en x - 1) x else Cc t * Dk t (n - 1) * exp (nth 1 t 0 * ln (x / e (n - 1))))
  else Cc t * Dk t 0 * exp (nth 0 t 0 * ln (x / e 0)).
Lemma curve_ok t x : (n + 2 <= length t)%nat -> 0 < x -> allpos t -> PPL_value dec en t x = Some (curve t x).
Proof.
  intros Lt Hx A. unfold curve. destruct (regions x Hx) as [Q|[(Q & Q')|(Q & j & Q1 & Q2 & Q3)]].
  - destruct (ltd_spec (e 0) x); [lra|]. apply value_low; auto.
  - destruct (ltd_spec (e 0) x); [|lra]. destruct (ltd_spec x (e (n - 1))); [lra|]. apply value_high; auto.
  - destruct (ltd_spec (e 0) x); [|lra]. pose proof (e_le (j + 1) (n - 1) ltac:(lia) ltac:(lia)). destruct (ltd_spec x (e (n - 1))); [|lra].
    rewrite (seg_bounds j) by auto. replace (S j - 1)%nat with j by lia. apply value_mid; auto; apply A; lia.
Qed.
Lemma mid_node t j : (j + 1 < n)%nat -> allpos t -> mid t j (e j) = Cc t * Dk t j /\ mid t j (e (j + 1)) = Cc t * Dk t (j + 1).
Proof.
  intros Hj A. unfold mid. rewrite wq_0, wq_1 by auto. pose proof (A j ltac:(lia)). pose proof (A (j + 1)%nat ltac:(lia)). split.
  - rewrite Rmult_0_l, exp_0. ring.
  - rewrite Rmult_1_l. unfold Rminus. rewrite exp_plus, exp_Ropp, !exp_ln by auto. field. lra.
Qed.
Lemma PPL_continuous t : (n + 2 <= length t)%nat -> allpos t -> forall x, 0 < x -> continuous (curve t) x.
Proof.
  intros Lt A x Hx.
  assert (C0 : forall c a b, 0 < b -> continuous (fun y => c * exp (a * ln (y / b))) x).
  { intros c a b Hb. apply (ex_derive_continuous (fun y => c * exp (a * ln (y / b)))). auto_derive. repeat split; auto; try lra; apply Rdiv_lt_0_compat; auto. }
  assert (CM : forall j, (j + 1 < n)%nat -> continuous (mid t j) x).
  { intros j Hj. apply (ex_derive_continuous (mid t j)). unfold mid, wq. pose proof (e_pos j ltac:(lia)). pose proof (lq_pos j Hj). auto_derive. repeat split; auto; try lra; apply Rdiv_lt_0_compat; auto. }
  set (low := fun y => Cc t * Dk t 0 * exp (nth 0 t 0 * ln (y / e 0))). set (high := fun y => Cc t * Dk t (n - 1) * exp (nth 1 t 0 * ln (y / e (n - 1)))).
  assert (CL : continuous low x) by (apply C0; apply e_pos; auto). assert (CH : continuous high x) by (apply C0; apply e_pos; lia).
  assert (one : forall b, 0 < b -> forall a, exp (a * ln (b / b)) = 1). { intros b Hb a. replace (b / b) with 1 by (field; lra). rewrite ln_1, Rmult_0_r. apply exp_0. }
  pose proof (e_pos 0 NE) as P0. pose proof (e_pos (n - 1) ltac:(lia)) as Pn. pose proof (e_le 0 (n - 1) ltac:(lia) ltac:(lia)) as G.
  destruct (Rlt_le_dec x (e 0)) as [B1|B1].
  { apply (glue _ low low); auto; try (unfold curve; destruct (ltd_spec (e 0) x); [lra|reflexivity]).
    eapply filter_imp; [|exact (near_lt (fun y => y) (fun _ => e 0) x ltac:(ctn) ltac:(ctn) B1)]. intros y Hy. simpl in Hy. left. unfold curve. destruct (ltd_spec (e 0) y); [lra|reflexivity]. }
  destruct (Rlt_le_dec (e (n - 1)) x) as [B2|B2].
  { apply (glue _ high high); auto; try (unfold curve; destruct (ltd_spec (e 0) x); [destruct (ltd_spec x (e (n - 1))); [lra|reflexivity]|lra]).
    eapply filter_imp; [|exact (near_lt (fun _ => e (n - 1)) (fun y => y) x ltac:(ctn) ltac:(ctn) B2)]. intros y Hy. simpl in Hy. left. unfold curve. destruct (ltd_spec (e 0) y); [destruct (ltd_spec y (e (n - 1))); [lra|reflexivity]|lra]. }
  destruct (Nat.eq_dec n 1) as [N1|N1].
  { rewrite N1 in *. change (1 - 1)%nat with 0%nat in *. assert (E : x = e 0) by lra. subst x.
    assert (Ec : forall y, curve t y = low y \/ curve t y = high y).
    { intros y. unfold curve. rewrite N1. change (1 - 1)%nat with 0%nat. destruct (ltd_spec (e 0) y); auto. destruct (ltd_spec y (e 0)); [lra|]. right. unfold high. rewrite ?N1. reflexivity. }
    assert (El : low (e 0) = high (e 0)) by (unfold low, high; replace (n - 1)%nat with 0%nat by lia; rewrite !one by auto; reflexivity).
    apply (glue _ low high); auto. apply filter_forall; auto. destruct (Ec (e 0)); congruence. destruct (Ec (e 0)); congruence. }
  (* between the first and the last node *)
  destruct (Rle_lt_dec (e (n - 1)) x) as [B3|B3].
  { assert (E : x = e (n - 1)) by lra. subst x. assert (L : e (n - 2) < e (n - 1)) by (apply e_lt; lia).
    assert (Hj : (n - 2 + 1 < n)%nat) by lia. destruct (mid_node t (n - 2) Hj A) as [_ M]. replace (n - 2 + 1)%nat with (n - 1)%nat in M by lia.
    assert (Ec : curve t (e (n - 1)) = high (e (n - 1))). { unfold curve. pose proof (e_lt 0 (n - 1) ltac:(lia) ltac:(lia)). destruct (ltd_spec (e 0) (e (n - 1))); [|lra]. destruct (ltd_spec (e (n - 1)) (e (n - 1))); [lra|reflexivity]. }
    apply (glue _ (mid t (n - 2)) high); auto.
    - pose proof (e_le 0 (n - 2) ltac:(lia) ltac:(lia)).
      eapply filter_imp; [|exact (near_lt (fun _ => e (n - 2)) (fun y => y) _ ltac:(ctn) ltac:(ctn) L)]. intros y Hy. simpl in Hy. unfold curve. destruct (ltd_spec (e 0) y); [|lra].
      destruct (ltd_spec y (e (n - 1))); [|right; reflexivity]. left. rewrite (seg_bounds (n - 2)%nat); [f_equal; lia|lra|replace (n - 2 + 1)%nat with (n - 1)%nat by lia; auto|auto].
    - rewrite Ec, M. unfold high. rewrite one by auto. ring. }
  destruct B1 as [B1|B1].
  - pose proof (ub_near en x INC) as U. set (k := upper_bound en x) in *.
    assert (K : exists j, k = S j /\ (j + 1 < n)%nat /\ e j <= x < e (j + 1)).
    { destruct (regions x Hx) as [Q|[(Q & Q')|(Q & j & Q1 & Q2 & Q3)]]; try lra. exists j. split; auto. unfold k. apply seg_bounds; auto. }
    destruct K as (j & Ek & Hj & J1 & J2).
    assert (Ex : curve t x = mid t j x). { unfold curve. destruct (ltd_spec (e 0) x); [|lra]. destruct (ltd_spec x (e (n - 1))); [|lra]. fold k. rewrite Ek. f_equal. lia. }
    apply (glue _ (mid t j) (mid t (if Req_EM_T (e j) x then j - 1 else j)%nat)); auto.
    + eapply filter_imp; [|exact (near_and _ _ _ U (near_and _ _ _ (near_lt (fun _ => e 0) (fun y => y) x ltac:(ctn) ltac:(ctn) B1) (near_lt (fun y => y) (fun _ => e (n - 1)) x ltac:(ctn) ltac:(ctn) B3)))].
      intros y (Uy & Y1 & Y2). simpl in Uy, Y1, Y2. unfold curve. destruct (ltd_spec (e 0) y); [|lra]. destruct (ltd_spec y (e (n - 1))); [|lra].
      destruct Uy as [Uy|(k' & U1 & U2 & U3)]; [left; rewrite Uy, Ek; f_equal; lia|]. right. assert (Ekj : k' = j) by lia. rewrite Ekj in U2, U3. rewrite U2. destruct (Req_EM_T (e j) x) as [q|q]; [reflexivity|elim q; exact U3].
    + rewrite Ex. destruct (Req_EM_T (e j) x) as [q|q]; auto. destruct j as [|j]; [lra|]. replace (S j - 1)%nat with j by lia. rewrite <- q.
      destruct (mid_node t (S j) Hj A) as [M _]. destruct (mid_node t j ltac:(lia) A) as [_ M']. replace (j + 1)%nat with (S j) in M' by lia. congruence.
    + destruct (Req_EM_T (e j) x); apply CM; lia.
  - subst x. assert (L : e 0 < e 1) by (apply e_lt; lia). destruct (mid_node t 0 ltac:(lia) A) as [M _].
    assert (Ec : curve t (e 0) = low (e 0)). { unfold curve. destruct (ltd_spec (e 0) (e 0)); [lra|reflexivity]. }
    apply (glue _ low (mid t 0)); auto.
    + pose proof (e_le 1 (n - 1) ltac:(lia) ltac:(lia)) as G1.
      eapply filter_imp; [|exact (near_lt (fun y => y) (fun _ => e 1) _ ltac:(ctn) ltac:(ctn) L)]. intros y Hy. simpl in Hy. unfold curve. destruct (ltd_spec (e 0) y); [|left; reflexivity].
      destruct (ltd_spec y (e (n - 1))); [|lra]. right. rewrite (seg_bounds 0%nat); [reflexivity|lra|auto|lia].
    + rewrite Ec, M. unfold low. rewrite one by auto. ring.
    + apply CM. lia.
Qed.
End PPL.

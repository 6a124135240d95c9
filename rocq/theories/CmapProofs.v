(** Energy bins, weights and effective backgrounds. *)
From Coq Require Import Reals Lra Permutation.
From Verif Require Import Base AccumModel AccumProofs HistModel DexpSpec DexpProofs CmapModel CmapSpec.
Local Open Scope R_scope.

Lemma seq_S' n : seq 0 (S n) = seq 0 n ++ [n].
Proof. rewrite seq_S. reflexivity. Qed.
Lemma mfold_snoc' {A S} (f : S -> A -> outcome S) l a s : mfold f (l ++ [a]) s = obind (mfold f l s) (fun t => f t a).
Proof. rewrite mfold_app. destruct (mfold f l s) as [t| |]; cbn [obind mfold]; try reflexivity. destruct (f t a); reflexivity. Qed.

Lemma skipn_cons {A} (x : A) r : forall m l, skipn m l = x :: r -> skipn (S m) l = r.
Proof. induction m as [|m IH]; intros [|y l] H; try discriminate; cbn [skipn] in *; [congruence|]. now apply IH. Qed.

(** Entry after entry of a vector is written. *)
Lemma write_loop (f : list R -> nat -> outcome (list R)) (v : nat -> R) n l :
  length l = n ->
  (forall ws k, (k < n)%nat -> length ws = n -> f ws k = vec_set ws k (v k)) ->
  mfold f (seq 0 n) l = Ok (map v (seq 0 n)).
Proof.
  intros Hl Hf.
  assert (K : forall m, (m <= n)%nat -> mfold f (seq 0 m) l = Ok (map v (seq 0 m) ++ skipn m l)).
  { induction m as [|m IH]; intros Hm.
    - reflexivity.
    - rewrite seq_S', mfold_snoc', IH by lia. cbn [obind].
      assert (Hlen : length (map v (seq 0 m) ++ skipn m l) = n).
      { rewrite app_length, map_length, seq_length, skipn_length. lia. }
      rewrite Hf by (auto; lia). rewrite vec_set_ok by lia. f_equal.
      rewrite map_app. cbn [map].
      destruct (skipn m l) as [|x r] eqn:E.
      { apply (f_equal (@length R)) in E. rewrite skipn_length in E. cbn [length] in E. lia. }
      assert (Er : r = skipn (S m) l).
      { symmetry. now apply skipn_cons with (x := x). }
      subst r. apply (list_ext_nth _ _ 0).
      + rewrite upd_length, !app_length. cbn [length]. lia.
      + intros i Hi. rewrite upd_length in Hi.
        destruct (Nat.eq_dec i m) as [->|Hne].
        * rewrite nth_upd_eq by lia. rewrite <- app_assoc.
          rewrite app_nth2 by (rewrite map_length, seq_length; lia).
          rewrite map_length, seq_length, Nat.sub_diag. reflexivity.
        * rewrite nth_upd_neq by lia. rewrite <- app_assoc. cbn [app].
          destruct (Nat.lt_ge_cases i m) as [L|L].
          -- rewrite !app_nth1 by (rewrite map_length, seq_length; lia). reflexivity.
          -- rewrite !app_nth2 by (rewrite map_length, seq_length; lia).
             rewrite map_length, seq_length.
             destruct (i - m)%nat eqn:D; [lia|]. reflexivity. }
  rewrite (K n) by lia. rewrite skipn_all2 by lia. now rewrite app_nil_r.
Qed.

Lemma widths_ok old es : es <> [] -> fillEnergyBinWidths old es = Ok (map (width es) (seq 0 (length es - 1))).
Proof.
  intros H. unfold fillEnergyBinWidths. destruct (length es) as [|nb] eqn:E; [destruct es; [congruence|discriminate E]|].
  replace (S nb - 1)%nat with nb by lia.
  apply write_loop; [apply vec_resize_length|].
  intros ws k Hk _. rewrite !(vec_get_ok es _ 0) by lia. reflexivity.
Qed.
Lemma centres_ok old es : es <> [] -> fillEnergyBinGeomCenters old es = Ok (map (centre es) (seq 0 (length es - 1))).
Proof.
  intros H. unfold fillEnergyBinGeomCenters. destruct (length es) as [|nb] eqn:E; [destruct es; [congruence|discriminate E]|].
  replace (S nb - 1)%nat with nb by lia.
  apply write_loop; [apply vec_resize_length|].
  intros ws k Hk _. rewrite !(vec_get_ok es _ 0) by lia. cbn [obind]. unfold centre. now rewrite Rmult_comm.
Qed.

(** ** Weights *)

Lemma values_at_ok maps n c : sized n maps -> (c < n)%nat -> values_at maps c = Ok (in_cell maps c).
Proof.
  intros Hs Hc. unfold values_at, in_cell. induction maps as [|v maps IH]; [reflexivity|].
  cbn [omap map]. rewrite (vec_get_ok v c 0) by (rewrite (Hs v) by (left; auto); auto). cbn [obind].
  rewrite IH by (intros w Hw; apply Hs; right; auto). reflexivity.
Qed.

Lemma bmin_fold vals : forall x, exists m,
  fold_left (fun m b => match m with None => Some b | Some x => if Rltb b x then Some b else Some x end) vals (Some x) = Some m
  /\ smallest (x :: vals) m.
Proof.
  induction vals as [|b vals IH]; intros x; cbn [fold_left].
  - exists x. split; [reflexivity|]. split; [now left|]. intros y [<-|[]]. lra.
  - destruct (Rltb_spec b x) as [L|L].
    + destruct (IH b) as (m & E & Hin & Hle). exists m. split; [exact E|]. split.
      * destruct Hin as [<-|Hin]; [right; now left|right; now right].
      * intros y [<-|Hy]; [|now apply Hle]. pose proof (Hle b (or_introl eq_refl)). lra.
    + destruct (IH x) as (m & E & Hin & Hle). exists m. split; [exact E|]. split.
      * destruct Hin as [<-|Hin]; [now left|right; now right].
      * intros y [<-|[<-|Hy]]; [apply Hle; now left| |apply Hle; now right].
        pose proof (Hle x (or_introl eq_refl)). lra.
Qed.
Lemma bmin_ok vals : vals <> [] -> exists m, bmin_of vals = Some m /\ smallest vals m.
Proof. destruct vals as [|x vals]; [congruence|]. intros _. exact (bmin_fold vals x). Qed.

Lemma smallest_unique l m m' : smallest l m -> smallest l m' -> m = m'.
Proof. intros (H1 & H2) (H3 & H4). pose proof (H2 _ H3). pose proof (H4 _ H1). lra. Qed.

Lemma sumk2_ok m vals : 0 < m -> (forall b, In b vals -> m <= b) ->
  sumk2_of m vals = Ok (total (map (fun b => (m / b) ^ 2) vals)).
Proof.
  intros Hm Hb. unfold sumk2_of. destruct (Rleb_spec m 0) as [L|_]; [lra|].
  assert (K : forall s, mfold (fun s b => if Reqb b 0 then UB else Ok (s + m / b * (m / b))) vals s
              = Ok (s + total (map (fun b => (m / b) ^ 2) vals))).
  { induction vals as [|b vals IH]; intros s; cbn [mfold].
    - cbn [map total fold_right]. f_equal. unfold total. cbn. lra.
    - pose proof (Hb b (or_introl eq_refl)).
      destruct (Reqb_spec b 0) as [E|_]; [lra|]. cbn [obind].
      rewrite IH by (intros y Hy; apply Hb; now right). f_equal. unfold total. cbn. lra. }
  rewrite K. f_equal. lra.
Qed.

Lemma total_sq_nonneg m vals : 0 <= total (map (fun b => (m / b) ^ 2) vals).
Proof. induction vals as [|b vals IH]; unfold total in *; cbn [map fold_right]; [lra|]. pose proof (pow2_ge_0 (m / b)). lra. Qed.
Lemma total_sq_one m vals : 0 < m -> In m vals -> 1 <= total (map (fun b => (m / b) ^ 2) vals).
Proof.
  intros Hm. induction vals as [|b vals IH]; [intros []|]. intros [<-|H]; unfold total in *; cbn [map fold_right].
  - pose proof (total_sq_nonneg b vals) as K. unfold total in K. unfold Rdiv at 1. rewrite Rinv_r by lra. lra.
  - pose proof (pow2_ge_0 (m / b)). specialize (IH H). lra.
Qed.
Lemma total_sq_more m vals : 0 < m -> In m vals -> (forall b, In b vals -> m <= b) -> (2 <= length vals)%nat ->
  1 < total (map (fun b => (m / b) ^ 2) vals).
Proof.
  intros Hm Hin Hb Hl. apply in_split in Hin as (l1 & l2 & ->).
  assert (G : forall l, l <> [] -> (forall b, In b l -> m <= b) -> 0 < total (map (fun b => (m / b) ^ 2) l)).
  { intros [|b l] Hne Hb'; [congruence|]. unfold total. cbn [map fold_right].
    pose proof (total_sq_nonneg m l) as K. unfold total in K.
    pose proof (Hb' b (or_introl eq_refl)).
    assert (0 < m / b) by (apply Rdiv_lt_0_compat; lra).
    pose proof (pow_lt (m / b) 2 H0). lra. }
  assert (T : forall a b, total (map (fun b => (m / b) ^ 2) (a ++ b)) = total (map (fun b => (m / b) ^ 2) a) + total (map (fun b => (m / b) ^ 2) b)).
  { intros a b. unfold total. induction a as [|x a IH]; cbn [map fold_right app]; [lra|]. rewrite IH. lra. }
  rewrite T. change (m :: l2) with ([m] ++ l2). rewrite T.
  assert (E1 : total (map (fun b => (m / b) ^ 2) [m]) = 1).
  { unfold total. cbn [map fold_right]. unfold Rdiv. rewrite Rinv_r by lra. lra. }
  rewrite E1. rewrite app_length in Hl. cbn [length] in Hl.
  pose proof (total_sq_nonneg m l1). pose proof (total_sq_nonneg m l2).
  destruct l1 as [|x l1].
  - destruct l2 as [|y l2]; [cbn in Hl; lia|].
    assert (0 < total (map (fun b => (m / b) ^ 2) (y :: l2))); [|lra].
    apply G; [discriminate|]. intros b Hb'. apply Hb. apply in_app_iff. right. now right.
  - assert (0 < total (map (fun b => (m / b) ^ 2) (x :: l1))); [|lra].
    apply G; [discriminate|]. intros b Hb'. apply Hb. apply in_app_iff. now left.
Qed.

Lemma alphaWts_pos e vals m : 0 <= e -> smallest vals m -> 0 < m -> getAlphaWts e vals = Ok (alpha e m vals).
Proof.
  intros He Hs Hm. unfold getAlphaWts.
  destruct (bmin_ok vals) as (m' & E & Hs'); [destruct Hs as (Hin & _); intros ->; destruct Hin|].
  rewrite E. rewrite (smallest_unique _ _ _ Hs' Hs) in *. clear m' E Hs'. destruct Hs as (Hin & Hb).
  rewrite (sumk2_ok m vals Hm Hb). cbn [obind].
  pose proof (total_sq_nonneg m vals).
  assert (0 <= e * m * total (map (fun b => (m / b) ^ 2) vals)).
  { apply Rmult_le_pos; [apply Rmult_le_pos; lra|lra]. }
  match goal with |- context [Reqb ?x 0] => destruct (Reqb_spec x 0) as [Z|_]; [lra|reflexivity] end.
Qed.
Lemma alphaWts_nonpos e vals m : smallest vals m -> m <= 0 -> getAlphaWts e vals = Ok (1 + e * m).
Proof.
  intros Hs Hm. unfold getAlphaWts.
  destruct (bmin_ok vals) as (m' & E & Hs'); [destruct Hs as (Hin & _); intros ->; destruct Hin|].
  rewrite E. rewrite (smallest_unique _ _ _ Hs' Hs) in *.
  unfold sumk2_of. destruct (Rleb_spec m 0) as [_|L]; [|lra]. cbn [obind].
  rewrite Rmult_0_r, Rplus_0_r. destruct (Reqb_spec 1 0) as [Z|_]; [lra|]. f_equal. field.
Qed.

Lemma alpha_bounds e m vals : 0 <= e -> smallest vals m -> 0 < m -> 0 < alpha e m vals <= 1.
Proof.
  intros He (Hin & _) Hm. unfold alpha. pose proof (total_sq_one m vals Hm Hin) as H1.
  set (t := total _) in *.
  assert (0 <= e * m) by (apply Rmult_le_pos; lra).
  assert (e * m * 1 <= e * m * t) by (apply Rmult_le_compat_l; lra).
  split.
  - apply Rdiv_lt_0_compat; lra.
  - apply (Rmult_le_reg_r (1 + e * m * t)); [lra|]. unfold Rdiv. rewrite Rmult_assoc, Rinv_l by lra. lra.
Qed.
Lemma alpha_strict e m vals : 0 < e -> smallest vals m -> 0 < m -> (2 <= length vals)%nat -> alpha e m vals < 1.
Proof.
  intros He (Hin & Hb) Hm Hl. unfold alpha. pose proof (total_sq_more m vals Hm Hin Hb Hl) as H1.
  set (t := total _) in *.
  assert (0 < e * m) by (apply Rmult_lt_0_compat; lra).
  assert (e * m * 1 < e * m * t) by (apply Rmult_lt_compat_l; lra).
  apply (Rmult_lt_reg_r (1 + e * m * t)); [lra|]. unfold Rdiv. rewrite Rmult_assoc, Rinv_l by lra. lra.
Qed.
Lemma alpha_one e m : 0 <= e -> 0 < m -> alpha e m [m] = 1.
Proof.
  intros He Hm. unfold alpha, total. cbn [map fold_right].
  assert (0 <= e * m) by (apply Rmult_le_pos; lra).
  replace (m / m) with 1 by (field; lra). field. lra.
Qed.
Lemma alpha_equal e m n : 0 <= e -> 0 < m -> alpha e m (repeat m n) = (1 + e * m) / (1 + INR n * (e * m)).
Proof.
  intros He Hm. unfold alpha. f_equal. f_equal.
  assert (E : total (map (fun b => (m / b) ^ 2) (repeat m n)) = INR n).
  { unfold total. induction n as [|n IH]; [reflexivity|]. cbn [repeat map fold_right]. rewrite IH, S_INR.
    replace (m / m) with 1 by (field; lra). ring. }
  rewrite E. ring.
Qed.

Lemma alphaVector_ok e maps n a0 (v : nat -> R) : (20 <= n)%nat -> length a0 = n -> sized n maps ->
  (forall c, (c < n)%nat -> getAlphaWts e (in_cell maps c) = Ok (v c)) ->
  getAlphaVector a0 e maps = Ok (map v (seq 0 n)).
Proof.
  intros Hn Hl Hs Hv. unfold getAlphaVector. rewrite Hl. apply write_loop; [exact Hl|].
  intros ws k Hk _.
  replace (n / 20 =? 0)%nat with false.
  2:{ symmetry. apply Nat.eqb_neq. pose proof (Nat.div_le_mono 20 n 20). rewrite Nat.div_same in H by lia. lia. }
  rewrite (values_at_ok maps n k Hs Hk). cbn [obind]. rewrite Hv by auto. reflexivity.
Qed.

Lemma wts_ok e a b ws : (20 <= length b)%nat -> length ws = length b -> 0 <= e -> (forall c, (c < length b)%nat -> 0 <= nth c b 0) ->
  getWts ws e a b = Ok (map (fun c => 1 / (1 + e * nth c b 0) * (if c <? length a then nth c a 0 else 1)) (seq 0 (length b))).
Proof.
  intros Hn Hl He Hb. unfold getWts. rewrite Hl. apply write_loop; [exact Hl|].
  intros w k Hk Hw.
  replace (length b / 20 =? 0)%nat with false.
  2:{ symmetry. apply Nat.eqb_neq. pose proof (Nat.div_le_mono 20 (length b) 20). rewrite Nat.div_same in H by lia. lia. }
  rewrite (vec_get_ok b k 0) by auto. cbn [obind].
  pose proof (Hb k Hk). assert (0 <= e * nth k b 0) by (apply Rmult_le_pos; lra).
  destruct (Reqb_spec (1 + e * nth k b 0) 0) as [Z|_]; [lra|].
  destruct (nth_error a k) as [x|] eqn:E.
  - assert (L : (k < length a)%nat) by (apply nth_error_Some; congruence).
    apply (proj2 (Nat.ltb_lt _ _)) in L. rewrite L. now rewrite (nth_error_nth a k 0 E).
  - apply nth_error_None in E. apply (proj2 (Nat.ltb_ge _ _)) in E. rewrite E. now rewrite Rmult_1_r.
Qed.

(** ** Effective background *)
Section Bkg.
Variables (es : list R) (peak : R -> R) (f : R) (N : nat).
Let n := (length es - 1)%nat.
Let means := map (centre es) (seq 0 n).
Hypothesis Hes : energy_grid es.
Hypothesis Hf : 0 < f.

Lemma nth_means k : (k < n)%nat -> nth k means 0 = centre es k.
Proof.
  intros H. unfold means. rewrite (nth_indep _ 0 (centre es 0)) by (rewrite map_length, seq_length; lia).
  rewrite map_nth, seq_nth by lia. reflexivity.
Qed.
Lemma means_length : length means = n. Proof. unfold means. now rewrite map_length, seq_length. Qed.

Lemma centre_le i j : (i <= j)%nat -> (j < n)%nat -> centre es i <= centre es j.
Proof.
  intros Hij Hj. unfold centre. unfold n in Hj.
  apply sqrt_le_1_alt. apply Rmult_le_compat.
  - apply Rlt_le, grid_pos; auto; lia.
  - apply Rlt_le, grid_pos; auto; lia.
  - apply grid_le; auto; lia.
  - apply grid_le; auto; lia.
Qed.

Lemma add_down_ok k p x emin (out0 : list R) : (p < N)%nat -> (k < n)%nat -> forall kk fuel out,
  (kk <= k)%nat -> (kk + 2 <= fuel)%nat -> (n * N <= length out)%nat -> length out = length out0 ->
  exists out', add_down fuel (Z.of_nat (kk * N + p)) (Z.of_nat kk) N means emin x out = Ok out' /\ length out' = length out0 /\
    forall k' q, (q < N)%nat ->
      nth (k' * N + q) out' 0 = nth (k' * N + q) out 0 + (if (q =? p)%nat && (k' <=? kk)%nat && Rleb emin (nth k' means 0) then x else 0).
Proof.
  intros Hp Hk. induction kk as [|kk IH]; intros fuel out Hkk Hfu Hlen Hl0.
  - destruct fuel as [|fuel]; [lia|]. cbn [add_down].
    replace (Z.of_nat (0 * N + p) <? 0)%Z with false by (symmetry; apply Z.ltb_ge; lia).
    replace (Z.of_nat 0 <? 0)%Z with false by reflexivity.
    rewrite !Nat2Z.id. rewrite (vec_get_ok means 0 0) by (rewrite means_length; lia). cbn [obind].
    destruct (Rltb_spec (nth 0 means 0) emin) as [L|L].
    + exists out. split; [reflexivity|]. split; [exact Hl0|]. intros k' q Hq.
      destruct k' as [|k']; [|rewrite andb_false_r; cbn [andb]; lra].
      destruct (Rleb_spec emin (nth 0 means 0)) as [L'|L']; [lra|]. rewrite andb_false_r. lra.
    + rewrite (vec_get_ok out _ 0) by nia. cbn [obind]. rewrite vec_set_ok by nia. cbn [obind].
      destruct fuel as [|fuel]; [lia|]. cbn [add_down].
      replace (Z.of_nat (0 * N + p) - Z.of_nat N <? 0)%Z with true by (symmetry; apply Z.ltb_lt; lia).
      eexists. split; [reflexivity|]. rewrite upd_length. split; [exact Hl0|]. intros k' q Hq.
      destruct (Nat.eq_dec (k' * N + q) (0 * N + p)) as [E|E].
      * assert (k' = 0%nat) by nia. subst k'. assert (q = p) by lia. subst q.
        rewrite nth_upd_eq by nia. rewrite Nat.eqb_refl. cbn [Nat.leb andb].
        destruct (Rleb_spec emin (nth 0 means 0)); lra.
      * rewrite nth_upd_neq by lia. destruct (Nat.eqb_spec q p) as [->|_]; [|cbn [andb]; lra].
        destruct k'; [lia|]. cbn [Nat.leb andb]. lra.
  - destruct fuel as [|fuel]; [lia|]. cbn [add_down].
    replace (Z.of_nat (S kk * N + p) <? 0)%Z with false by (symmetry; apply Z.ltb_ge; lia).
    replace (Z.of_nat (S kk) <? 0)%Z with false by (symmetry; apply Z.ltb_ge; lia).
    rewrite !Nat2Z.id. rewrite (vec_get_ok means (S kk) 0) by (rewrite means_length; lia). cbn [obind].
    assert (Hidx : (S kk * N + p < length out)%nat).
    { assert (S (S kk) * N <= n * N)%nat by (apply Nat.mul_le_mono_r; lia). lia. }
    destruct (Rltb_spec (nth (S kk) means 0) emin) as [L|L].
    + exists out. split; [reflexivity|]. split; [exact Hl0|]. intros k' q Hq.
      destruct (Nat.leb_spec k' (S kk)) as [Lk|Lk]; [|rewrite andb_false_r; cbn [andb]; lra].
      assert (nth k' means 0 <= nth (S kk) means 0).
      { rewrite !nth_means by lia. apply centre_le; lia. }
      destruct (Rleb_spec emin (nth k' means 0)) as [L'|L']; [lra|]. rewrite andb_false_r. lra.
    + rewrite (vec_get_ok out _ 0) by exact Hidx. cbn [obind]. rewrite vec_set_ok by exact Hidx. cbn [obind].
      replace (Z.of_nat (S kk * N + p) - Z.of_nat N)%Z with (Z.of_nat (kk * N + p)) by lia.
      replace (Z.of_nat (S kk) - 1)%Z with (Z.of_nat kk) by lia.
      destruct (IH fuel (upd out (S kk * N + p) (nth (S kk * N + p) out 0 + x))) as (out' & E & Hl' & Hn');
        [lia|lia|rewrite upd_length; lia|rewrite upd_length; lia|].
      exists out'. split; [exact E|]. split; [exact Hl'|]. intros k' q Hq. rewrite Hn' by auto.
      destruct (Nat.eq_dec (k' * N + q) (S kk * N + p)) as [Ek|Ek].
      * assert (k' = S kk) by nia. subst k'. assert (q = p) by lia. subst q.
        rewrite nth_upd_eq by exact Hidx. rewrite Nat.eqb_refl.
        replace (S kk <=? kk)%nat with false by (symmetry; apply Nat.leb_gt; lia).
        rewrite Nat.leb_refl. cbn [andb]. destruct (Rleb_spec emin (nth (S kk) means 0)); lra.
      * rewrite nth_upd_neq by lia. f_equal. destruct (Nat.eqb_spec q p) as [->|_]; [|reflexivity]. cbn [andb].
        assert (k' <> S kk) by (intros ->; lia).
        destruct (Nat.leb_spec k' kk), (Nat.leb_spec k' (S kk)); try lia; reflexivity.
Qed.

Variable c : nat -> nat -> R.
Hypothesis Hpeak : forall k, (k < n)%nat -> peak (centre es k) <> 0.

(** What plane k adds to bin k' in pixel q. *)
Definition adds (k' q k : nat) : R :=
  if (k' <=? k)%nat then if Rle_dec (centre es k) (f * centre es k') then c k q * width es k / peak (centre es k) else 0 else 0.

(** Planes below K are done, and the first P pixels of plane K. *)
Definition done (K P : nat) (out : list R) : Prop :=
  length out = (n * N)%nat /\
  forall k' q, (q < N)%nat -> (k' < K \/ k' = K /\ q < P)%nat ->
    nth (k' * N + q) out 0 = sum (if (q <? P)%nat then S K else K) (adds k' q).

Lemma pixel_step K P out : (K < n)%nat -> (P < N)%nat -> done K P out ->
  exists out', bkg_pixel means f N K (centre es K) (width es K / peak (centre es K)) (K * N + P, out)%nat (c K P)
               = Ok (S (K * N + P), out') /\ done K (S P) out'.
Proof.
  intros HK HP (Hlen & Hd). unfold bkg_pixel.
  assert (Hidx : (K * N + P < n * N)%nat).
  { assert (S K * N <= n * N)%nat by (apply Nat.mul_le_mono_r; lia). lia. }
  rewrite vec_set_ok by lia. cbn [obind]. destruct (Reqb_spec f 0) as [Z|_]; [lra|].
  destruct (add_down_ok K P (c K P * (width es K / peak (centre es K))) (centre es K / f) out HP HK K
              (S (S (K * N + P))) (upd out (K * N + P) 0)) as (out' & E & Hl' & Hn');
    [lia|nia|rewrite upd_length; lia|apply upd_length|].
  rewrite E. cbn [obind]. exists out'. split; [reflexivity|]. split; [lia|].
  intros k' q Hq Hz. rewrite Hn' by auto.
  destruct (Nat.eqb_spec q P) as [->|Hne].
  - cbn [andb]. replace (P <? S P)%nat with true by (symmetry; apply Nat.ltb_lt; lia).
    cbn [sum]. f_equal.
    + destruct (Nat.eq_dec k' K) as [->|Hk].
      * rewrite nth_upd_eq by lia.
        assert (G : forall m, (m <= K)%nat -> sum m (adds K P) = 0).
        { induction m as [|m IH]; intros Hm; cbn [sum]; [reflexivity|]. rewrite IH by lia. unfold adds.
          replace (K <=? m)%nat with false by (symmetry; apply Nat.leb_gt; lia). lra. }
        symmetry. apply G; lia.
      * assert (k' < K)%nat by lia.
        rewrite nth_upd_neq by (assert (S k' * N <= K * N)%nat by (apply Nat.mul_le_mono_r; lia); lia).
        rewrite Hd by (auto; lia). rewrite Nat.ltb_irrefl. reflexivity.
    + unfold adds. assert (Lk : (k' <= K)%nat) by lia. rewrite (proj2 (Nat.leb_le _ _) Lk). cbn [andb].
      rewrite nth_means by lia.
      assert (I : centre es K / f <= centre es k' <-> centre es K <= f * centre es k').
      { split; intros Hx.
        - apply (Rmult_le_compat_l f) in Hx; [|lra]. replace (f * (centre es K / f)) with (centre es K) in Hx by (field; lra). exact Hx.
        - apply (Rmult_le_reg_l f); [lra|]. replace (f * (centre es K / f)) with (centre es K) by (field; lra). exact Hx. }
      destruct (Rleb_spec (centre es K / f) (centre es k')) as [L|L];
        destruct (Rle_dec (centre es K) (f * centre es k')) as [L2|L2].
      * field. apply Hpeak; auto.
      * exfalso. apply L2. now apply I.
      * apply I in L2. lra.
      * reflexivity.
  - cbn [andb]. rewrite Rplus_0_r.
    rewrite nth_upd_neq.
    + rewrite Hd by (auto; lia). destruct (Nat.ltb_spec q P), (Nat.ltb_spec q (S P)); try lia; reflexivity.
    + intros Ek. assert (k' = K) by nia. subst k'. lia.
Qed.

Lemma plane_step K out : (K < n)%nat -> done K 0 out -> forall plane, length plane = N ->
  (forall q, (q < N)%nat -> nth q plane 0 = c K q) ->
  exists out', mfold (bkg_pixel means f N K (centre es K) (width es K / peak (centre es K))) plane (K * N, out)%nat
               = Ok ((S K * N)%nat, out') /\ done (S K) 0 out'.
Proof.
  intros HK Hd plane Hl Hc.
  assert (G : forall P, (P <= N)%nat -> exists out',
    mfold (bkg_pixel means f N K (centre es K) (width es K / peak (centre es K))) (firstn P plane) (K * N, out)%nat
      = Ok ((K * N + P)%nat, out') /\ done K P out').
  { induction P as [|P IH]; intros HP.
    - exists out. cbn [firstn mfold]. rewrite Nat.add_0_r. auto.
    - destruct IH as (out1 & E1 & D1); [lia|].
      assert (Ef : firstn (S P) plane = firstn P plane ++ [c K P]).
      { rewrite <- (Hc P) by lia. clear -Hl HP. revert plane Hl HP. revert N. induction P as [|P IH]; intros M plane Hl HP.
        - destruct plane; [cbn in *; lia|]. reflexivity.
        - destruct plane as [|x plane]; [cbn in *; lia|]. cbn [firstn nth app]. f_equal.
          apply (IH (length plane)); cbn in *; lia. }
      rewrite Ef, mfold_snoc', E1. cbn [obind].
      destruct (pixel_step K P out1 HK ltac:(lia) D1) as (out2 & E2 & D2).
      rewrite E2. exists out2. split; [|exact D2]. f_equal. f_equal. lia. }
  destruct (G N (le_n N)) as (out' & E & D). rewrite firstn_all2 in E by lia.
  exists out'. split; [rewrite E; f_equal; f_equal; lia|].
  destruct D as (Dl & Dv). split; [exact Dl|]. intros k' q Hq Hz.
  rewrite Dv by (auto; lia). replace (q <? N)%nat with true by (symmetry; apply Nat.ltb_lt; lia).
  replace (q <? 0)%nat with false by reflexivity. reflexivity.
Qed.

Lemma planes_ok data (g : nat * list R -> nat -> outcome (nat * list R)) : length data = (n * N)%nat ->
  (forall K out, (K < n)%nat -> done K 0 out ->
     exists out', g (K * N, out)%nat K = Ok ((S K * N)%nat, out') /\ done (S K) 0 out') ->
  exists st, mfold g (seq 0 n) (0%nat, data) = Ok st /\ done n 0 (snd st).
Proof.
  intros Hlen Hg.
  assert (G : forall K, (K <= n)%nat -> exists out, mfold g (seq 0 K) (0%nat, data) = Ok ((K * N)%nat, out) /\ done K 0 out).
  { induction K as [|K IH]; intros HK.
    - exists data. split; [reflexivity|]. split; [exact Hlen|]. intros k' q _ [H|(_ & H)]; lia.
    - destruct IH as (out & E & D); [lia|]. rewrite seq_S', mfold_snoc', E. cbn [obind]. apply Hg; auto; lia. }
  destruct (G n (le_n n)) as (out & E & D). exists ((n * N)%nat, out). auto.
Qed.
End Bkg.

Lemma mfold_concat {A S} (f : S -> A -> outcome S) rows : forall s,
  mfold (fun s row => mfold f row s) rows s = mfold f (concat rows) s.
Proof.
  induction rows as [|row rows IH]; intros s; [reflexivity|]. cbn [mfold concat]. rewrite mfold_app.
  destruct (mfold f row s); cbn [obind]; auto.
Qed.

Lemma nth_concat nx q : forall (rows : list (list R)), (forall r, In r rows -> length r = nx) -> (0 < nx)%nat ->
  nth q (concat rows) 0 = nth (q mod nx) (nth (q / nx) rows []) 0.
Proof.
  intros rows. revert q. induction rows as [|r rows IH]; intros q Hr Hn.
  - cbn [concat]. destruct (q / nx)%nat; destruct (q mod nx)%nat; destruct q; reflexivity.
  - cbn [concat]. pose proof (Hr r (or_introl eq_refl)) as Hl.
    destruct (Nat.lt_ge_cases q nx) as [L|L].
    + rewrite app_nth1 by lia. rewrite Nat.div_small, Nat.mod_small by lia. reflexivity.
    + rewrite app_nth2 by lia. rewrite Hl, IH by (auto; intros; apply Hr; now right).
      replace q with ((q - nx) + 1 * nx)%nat at 3 4 by lia.
      rewrite Nat.div_add, Nat.mod_add by lia. rewrite Nat.add_1_r. reflexivity.
Qed.
Lemma length_concat nx : forall (rows : list (list R)), (forall r, In r rows -> length r = nx) -> length (concat rows) = (length rows * nx)%nat.
Proof.
  induction rows as [|r rows IH]; intros Hr; [reflexivity|]. cbn [concat length]. rewrite app_length, IH, (Hr r) by (try (now left); intros; apply Hr; now right). lia.
Qed.

Lemma bkg_ok es peak f nx ny conv data : energy_grid es -> 0 < f ->
  (forall k, (k < length es - 1)%nat -> peak (centre es k) <> 0) ->
  planes (length es - 1) nx ny conv -> length data = ((length es - 1) * (nx * ny))%nat ->
  exists out, makeBkgEffMap peak es nx ny f conv data = Ok out /\ length out = length data /\
    forall k' i j, (k' < length es - 1)%nat -> (i < nx)%nat -> (j < ny)%nat ->
      nth (k' * (nx * ny) + (j * nx + i)) out 0
      = effective es peak f (length es - 1) (fun k p => nth (p mod nx) (nth (p / nx) (nth k conv []) []) 0) k' (j * nx + i).
Proof.
  intros Hes Hf Hp (Hc1 & Hc2) Hd. unfold makeBkgEffMap.
  destruct (Nat.eqb_spec (length es) 0) as [Z|_]; [destruct Hes; lia|].
  assert (Hne : es <> []) by (destruct Hes as (H2 & _); intros ->; cbn in H2; lia).
  rewrite (widths_ok _ es Hne), (centres_ok _ es Hne). cbn [obind].
  set (n := (length es - 1)%nat) in *.
  set (cc := fun k p => nth (p mod nx) (nth (p / nx) (nth k conv []) []) 0).
  match goal with |- context [mfold ?g (seq 0 n) (0%nat, data)] => destruct (planes_ok es peak f (nx * ny) cc data g) as (st & E & Dl & Dv) end.
  { exact Hd. }
  { intros K out HK D. fold n in HK.
    rewrite (vec_get_ok _ K 0) by (rewrite map_length, seq_length; lia). cbn [obind].
    rewrite (vec_get_ok _ K 0) by (rewrite map_length, seq_length; lia). cbn [obind].
    pose proof (nth_means es K HK) as Em. fold n in Em. rewrite Em.
    assert (Ew : nth K (map (width es) (seq 0 n)) 0 = width es K).
    { rewrite (nth_indep _ 0 (width es 0)) by (rewrite map_length, seq_length; lia). rewrite map_nth, seq_nth by lia. reflexivity. }
    rewrite Ew. destruct (Reqb_spec (peak (centre es K)) 0) as [Z|_]; [exfalso; apply (Hp K HK Z)|].
    rewrite (vec_get_ok conv K []) by lia. cbn [obind]. rewrite mfold_concat.
    destruct (Hc2 K HK) as (Hr1 & Hr2).
    apply (plane_step es peak f (nx * ny) Hes Hf cc Hp K out HK D).
    - rewrite (length_concat nx) by auto. rewrite Hr1. lia.
    - intros q Hq. unfold cc. apply nth_concat; auto. destruct nx; lia. }
  fold n in E. rewrite E. cbn [obind]. exists (snd st). split; [reflexivity|]. fold n in Dl, Dv. split; [lia|].
  intros k' i j Hk Hi Hj. assert (Hq : (j * nx + i < nx * ny)%nat) by nia.
  rewrite Dv by (auto; lia). reflexivity.
Qed.

Lemma bkg_hpx_ok es peak f npix conv data : energy_grid es -> 0 < f ->
  (forall k, (k < length es - 1)%nat -> peak (centre es k) <> 0) ->
  length conv = (length es - 1)%nat -> (forall k, (k < length es - 1)%nat -> (npix <= length (nth k conv []))%nat) ->
  length data = ((length es - 1) * npix)%nat ->
  exists out, makeBkgEffMap_hpx peak es npix f conv data = Ok out /\ length out = length data /\
    forall k' i, (k' < length es - 1)%nat -> (i < npix)%nat ->
      nth (k' * npix + i) out 0 = effective es peak f (length es - 1) (fun k p => nth p (nth k conv []) 0) k' i.
Proof.
  intros Hes Hf Hp Hc1 Hc2 Hd. unfold makeBkgEffMap_hpx.
  destruct (Nat.eqb_spec (length es) 0) as [Z|_]; [destruct Hes; lia|].
  assert (Hne : es <> []) by (destruct Hes as (H2 & _); intros ->; cbn in H2; lia).
  rewrite (widths_ok _ es Hne), (centres_ok _ es Hne). cbn [obind].
  set (n := (length es - 1)%nat) in *.
  set (cc := fun k p => nth p (nth k conv []) 0).
  match goal with |- context [mfold ?g (seq 0 n) (0%nat, data)] => destruct (planes_ok es peak f npix cc data g) as (st & E & Dl & Dv) end.
  { exact Hd. }
  { intros K out HK D. fold n in HK.
    rewrite (vec_get_ok _ K 0) by (rewrite map_length, seq_length; lia). cbn [obind].
    rewrite (vec_get_ok _ K 0) by (rewrite map_length, seq_length; lia). cbn [obind].
    pose proof (nth_means es K HK) as Em. fold n in Em. rewrite Em.
    assert (Ew : nth K (map (width es) (seq 0 n)) 0 = width es K).
    { rewrite (nth_indep _ 0 (width es 0)) by (rewrite map_length, seq_length; lia). rewrite map_nth, seq_nth by lia. reflexivity. }
    rewrite Ew. destruct (Reqb_spec (peak (centre es K)) 0) as [Z|_]; [exfalso; apply (Hp K HK Z)|].
    rewrite (vec_get_ok conv K []) by lia. cbn [obind].
    assert (M : forall (F : nat * list R -> R -> outcome (nat * list R)) m s, (m <= npix)%nat ->
      mfold (fun st i => obind (vec_get (nth K conv []) i) (fun c => F st c)) (seq 0 m) s = mfold F (firstn m (nth K conv [])) s).
    { intros F m. induction m as [|m IH]; intros s Hm; [reflexivity|].
      rewrite seq_S', mfold_snoc', IH by lia.
      assert (Hlt : (m < length (nth K conv []))%nat) by (pose proof (Hc2 K HK); lia).
      assert (Ef : firstn (S m) (nth K conv []) = firstn m (nth K conv []) ++ [nth m (nth K conv []) 0]).
      { clear -Hlt. generalize (nth K conv []) as plane, Hlt. clear. induction m as [|m IH]; intros [|x plane] H; cbn in *; try lia; [reflexivity|].
        f_equal. apply IH; lia. }
      rewrite Ef, mfold_snoc'. destruct (mfold F (firstn m (nth K conv [])) s); cbn [obind]; try reflexivity.
      rewrite (vec_get_ok _ m 0) by exact Hlt. reflexivity. }
    rewrite M by lia.
    apply (plane_step es peak f npix Hes Hf cc Hp K out HK D).
    - rewrite firstn_length. pose proof (Hc2 K HK). lia.
    - intros q Hq. unfold cc. clear -Hq. revert q Hq. generalize (nth K conv []) as plane. revert npix.
      induction npix as [|m IH]; intros plane q Hq; [lia|]. destruct plane as [|x plane]; [destruct q; reflexivity|].
      destruct q as [|q]; [reflexivity|]. cbn [firstn nth]. apply IH. lia. }
  fold n in E. rewrite E. cbn [obind]. exists (snd st). split; [reflexivity|]. fold n in Dl, Dv. split; [lia|].
  intros k' i Hk Hi. rewrite Dv by (auto; lia). reflexivity.
Qed.

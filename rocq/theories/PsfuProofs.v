(** Proofs for PsfuProps.v. *)
From Verif Require Import Base AccumModel AccumProofs PsfuModel PsfuSpec.
From Coq Require Import Reals List Lra Lia.
Import ListNotations.
Local Open Scope R_scope.

(** ** Sums and loops *)

Lemma total_S n f : total (S n) f = total n f + f n.
Proof.
  unfold total. rewrite seq_S, map_app, fold_right_app. cbn [map fold_right plus].
  enough (H : forall l a, fold_right Rplus a l = fold_right Rplus 0 l + a) by (rewrite H; lra).
  induction l as [|b l IH]; intros a; cbn; [lra|]. rewrite IH. lra.
Qed.
Lemma total_0 f : total 0 f = 0. Proof. reflexivity. Qed.
Lemma total_ext n f g : (forall i, (i < n)%nat -> f i = g i) -> total n f = total n g.
Proof. induction n as [|n IH]; intros H; [reflexivity|]. rewrite !total_S, IH, H; auto. Qed.
Lemma total_scale n c f : total n (fun i => c * f i) = c * total n f.
Proof. induction n as [|n IH]; [rewrite !total_0; lra|]. rewrite !total_S, IH. lra. Qed.
Lemma total_zero n : total n (fun _ => 0) = 0.
Proof. induction n as [|n IH]; [reflexivity|]. rewrite total_S, IH. lra. Qed.
Lemma total_nonneg n f : (forall i, (i < n)%nat -> 0 <= f i) -> 0 <= total n f.
Proof. induction n as [|n IH]; intros H; [rewrite total_0; lra|]. rewrite total_S. specialize (IH ltac:(auto)). specialize (H n ltac:(lia)). lra. Qed.
Lemma total_one n f i : (i < n)%nat -> (forall j, (j < n)%nat -> j <> i -> f j = 0) -> total n f = f i.
Proof.
  induction n as [|n IH]; intros Hi H; [lia|]. rewrite total_S. destruct (Nat.eq_dec i n) as [->|N].
  - rewrite (total_ext n f (fun _ => 0)), total_zero by (intros; apply H; lia). lra.
  - rewrite IH by (lia || (intros; apply H; lia)). rewrite (H n) by lia. lra.
Qed.
Lemma total_list (l : list R) : total (length l) (fun i => nth i l 0) = fold_left Rplus l 0.
Proof.
  rewrite <- fold_left_rev_right. induction l as [|a l IH] using rev_ind; [reflexivity|].
  rewrite rev_app_distr, app_length. cbn [length rev app fold_right]. replace (length l + 1)%nat with (S (length l)) by lia.
  rewrite total_S, app_nth2, Nat.sub_diag by lia. cbn [nth].
  rewrite (total_ext _ _ (fun i => nth i l 0)) by (intros; now apply app_nth1). rewrite IH. lra.
Qed.

Lemma mfold_inv {S} (f : S -> nat -> outcome S) (I : nat -> S -> Prop) a n s :
  I 0%nat s ->
  (forall i t, (i < n)%nat -> I i t -> exists t', f t (a + i)%nat = Ok t' /\ I (Datatypes.S i) t') ->
  exists t, mfold f (seq a n) s = Ok t /\ I n t.
Proof.
  intros H0. revert s a I H0. induction n as [|n IH]; intros s a I H0 H; [exists s; auto|].
  destruct (H 0%nat s ltac:(lia) H0) as (t & E & It). rewrite Nat.add_0_r in E.
  cbn [seq mfold]. rewrite E. cbn [obind].
  apply (IH t (Datatypes.S a) (fun i => I (Datatypes.S i)) It).
  intros i u Hi Iu. destruct (H (Datatypes.S i) u ltac:(lia) Iu) as (u' & E' & Iu'). exists u'. split; [|exact Iu'].
  now replace (Datatypes.S a + i)%nat with (a + Datatypes.S i)%nat by lia.
Qed.

Ltac loop inv t E It := match goal with |- context [mfold ?f (seq ?a ?n) ?s] => destruct (mfold_inv f inv a n s) as (t & E & It) end.

Lemma combine_seq_map {A} (l : list A) (d : A) a : combine (seq a (length l)) l = map (fun i => (i, nth (i - a) l d)) (seq a (length l)).
Proof.
  revert a. induction l as [|x l IH]; intros a; [reflexivity|]. cbn [length seq combine map]. rewrite Nat.sub_diag. cbn [nth]. f_equal.
  rewrite IH. apply map_ext_in. intros i Hi. apply in_seq in Hi. f_equal. replace (i - a)%nat with (S (i - S a)) by lia. reflexivity.
Qed.

Lemma mfold_map {A B S} (f : S -> B -> outcome S) (g : A -> B) l s : mfold f (map g l) s = mfold (fun t a => f t (g a)) l s.
Proof. revert s. induction l as [|a l IH]; intros s; cbn; [reflexivity|]. destruct (f s (g a)); cbn; auto. Qed.

Lemma mfold_pairs {A S} (f : S -> nat * A -> outcome S) (l : list A) (d : A) (I : nat -> S -> Prop) s :
  I 0%nat s ->
  (forall i t, (i < length l)%nat -> I i t -> exists t', f t (i, nth i l d) = Ok t' /\ I (Datatypes.S i) t') ->
  exists t, mfold f (combine (seq 0 (length l)) l) s = Ok t /\ I (length l) t.
Proof.
  intros H0 H. rewrite (combine_seq_map l d), mfold_map. apply mfold_inv; [exact H0|].
  intros i t Hi It. cbn [plus]. rewrite Nat.sub_0_r. now apply H.
Qed.

Lemma mfold_pairs_eq {A S} (f g : S -> nat * A -> outcome S) l s : (forall t a, In a l -> f t a = g t a) -> mfold f l s = mfold g l s.
Proof. revert s. induction l as [|a l IH]; intros s H; cbn; [reflexivity|]. rewrite H by (now left). destruct (g s a); cbn; auto. apply IH. intros; apply H; now right. Qed.

(** ** Interpolation *)

Lemma trunc_floor r : 0 <= r -> INR (trunc_nat r) <= r < INR (trunc_nat r) + 1.
Proof.
  intros H. unfold trunc_nat. destruct (archimed r) as [A B].
  assert (Hu : (1 <= up r)%Z) by (apply lt_IZR in A || (assert (0 < IZR (up r)) by lra; apply lt_IZR in H0; lia); lia).
  rewrite INR_IZR_INZ, Z2Nat.id by lia. rewrite minus_IZR. lra.
Qed.

Lemma trunc_INR k : trunc_nat (INR k) = k.
Proof.
  pose proof (trunc_floor (INR k) (pos_INR k)) as [A B]. rewrite <- S_INR in B. apply INR_le in A. apply INR_lt in B. lia.
Qed.

Lemma gir_spec v n i r : (2 <= n)%nat -> get_index_and_remainder v n = (i, r) -> (i + 1 < n)%nat /\ r = v - INR i.
Proof.
  intros Hn E. unfold get_index_and_remainder in E. replace (n =? 1)%nat with false in E by (symmetry; apply Nat.eqb_neq; lia).
  injection E as Ei Er. subst r. split; [|now rewrite Ei]. rewrite <- Ei. pose proof (Nat.le_min_r (trunc_nat (if Rltb v 0 then 0 else if Rltb (INR (n - 1)) v then INR (n - 1) else v)) (n - 2)). lia.
Qed.

Lemma gir_inside v n i r : (2 <= n)%nat -> 0 <= v <= INR (n - 1) -> get_index_and_remainder v n = (i, r) -> 0 <= r <= 1.
Proof.
  intros Hn Hv E. unfold get_index_and_remainder in E. replace (n =? 1)%nat with false in E by (symmetry; apply Nat.eqb_neq; lia).
  destruct (Rltb_spec v 0) as [C|C]; [lra|]. destruct (Rltb_spec (INR (n - 1)) v) as [D|D]; [lra|].
  injection E as Ei Er. pose proof (trunc_floor v ltac:(lra)) as [A B].
  destruct (Nat.min_spec (trunc_nat v) (n - 2)) as [[Hm Em]|[Hm Em]]; rewrite Em in *.
  - subst. lra.
  - subst r. apply le_INR in Hm. replace (n - 1)%nat with (S (n - 2)) in Hv by lia. rewrite S_INR in Hv. lra.
Qed.

Lemma gir_node k n i r : (2 <= n)%nat -> (k < n)%nat -> get_index_and_remainder (INR k) n = (i, r) -> (i = k /\ r = 0) \/ (S i = k /\ r = 1).
Proof.
  intros Hn Hk E. unfold get_index_and_remainder in E. replace (n =? 1)%nat with false in E by (symmetry; apply Nat.eqb_neq; lia).
  destruct (Rltb_spec (INR k) 0) as [C|C]; [pose proof (pos_INR k); lra|].
  destruct (Rltb_spec (INR (n - 1)) (INR k)) as [D|D]; [apply INR_lt in D; lia|]. rewrite trunc_INR in E.
  injection E as Ei Er. destruct (Nat.min_spec k (n - 2)) as [[Hm Em]|[Hm Em]]; rewrite Em in *.
  - left. subst. split; [reflexivity|lra].
  - destruct (Nat.eq_dec k (n - 2)) as [->|N]; [left; subst; split; [reflexivity|lra]|].
    right. assert (k = S (n - 2)) by lia. subst k. rewrite S_INR in Er. subst. split; [reflexivity|lra].
Qed.

Lemma entry_ok rows cols z i j : table rows cols z -> (i < rows)%nat -> (j < cols)%nat -> exists row v, vec_get z i = Ok row /\ vec_get row j = Ok v /\ entry z i j = Some v.
Proof.
  intros [L R] Hi Hj. destruct (nth_error z i) as [row|] eqn:E; [|apply nth_error_None in E; lia].
  assert (length row = cols) by (apply R; eapply nth_error_In; eauto).
  destruct (nth_error row j) as [v|] eqn:E2; [|apply nth_error_None in E2; lia].
  exists row, v. unfold vec_get, entry. rewrite E, E2. auto.
Qed.

Lemma bilinear_formula rows cols z x y : table rows cols z -> (2 <= rows)%nat -> (2 <= cols)%nat ->
  exists i j rx ry z1 z2 z3 z4,
    get_index_and_remainder x rows = (i, rx) /\ get_index_and_remainder y cols = (j, ry) /\
    (i + 1 < rows)%nat /\ (j + 1 < cols)%nat /\
    entry z i j = Some z1 /\ entry z i (j + 1) = Some z2 /\ entry z (i + 1) j = Some z3 /\ entry z (i + 1) (j + 1) = Some z4 /\
    bilinear_on_grid x y z = Ok ((1 - rx) * (1 - ry) * z1 + (1 - rx) * ry * z2 + rx * (1 - ry) * z3 + rx * ry * z4).
Proof.
  intros T Hr Hc. destruct (get_index_and_remainder x rows) as [i rx] eqn:Ex. destruct (get_index_and_remainder y cols) as [j ry] eqn:Ey.
  destruct (gir_spec _ _ _ _ Hr Ex) as [Hi _]. destruct (gir_spec _ _ _ _ Hc Ey) as [Hj _].
  destruct (entry_ok _ _ _ i j T ltac:(lia) ltac:(lia)) as (ra & z1 & A1 & A2 & A3).
  destruct (entry_ok _ _ _ i (j + 1) T ltac:(lia) ltac:(lia)) as (ra' & z2 & B1 & B2 & B3). rewrite A1 in B1. injection B1 as <-.
  destruct (entry_ok _ _ _ (i + 1) j T ltac:(lia) ltac:(lia)) as (rb & z3 & C1 & C2 & C3).
  destruct (entry_ok _ _ _ (i + 1) (j + 1) T ltac:(lia) ltac:(lia)) as (rb' & z4 & D1 & D2 & D3). rewrite C1 in D1. injection D1 as <-.
  exists i, j, rx, ry, z1, z2, z3, z4. repeat (split; [assumption || reflexivity|]).
  destruct (entry_ok _ _ _ 0 0 T ltac:(lia) ltac:(lia)) as (r0 & v0 & F1 & F2 & F3).
  destruct T as [L R]. assert (L0 : length r0 = cols). { apply R. unfold vec_get in F1. destruct (nth_error z 0) eqn:E; [|discriminate]. injection F1 as <-. eapply nth_error_In; eauto. }
  unfold bilinear_on_grid. rewrite F1. cbn [obind]. rewrite L, L0. replace (cols =? 0)%nat with false by (symmetry; apply Nat.eqb_neq; lia).
  rewrite Ex, Ey, A1. cbn [obind]. rewrite A2. cbn [obind]. rewrite B2. cbn [obind]. rewrite C1. cbn [obind]. rewrite C2. cbn [obind]. rewrite D2. reflexivity.
Qed.

Lemma bilinear_poly a b c d rows cols z x y : (2 <= rows)%nat -> (2 <= cols)%nat -> table rows cols z ->
  (forall i j, (i < rows)%nat -> (j < cols)%nat -> entry z i j = Some (a + b * INR i + c * INR j + d * INR i * INR j)) ->
  bilinear_on_grid x y z = Ok (a + b * x + c * y + d * x * y).
Proof.
  intros Hr Hc T H. destruct (bilinear_formula _ _ _ x y T Hr Hc) as (i & j & rx & ry & z1 & z2 & z3 & z4 & Ex & Ey & Hi & Hj & E1 & E2 & E3 & E4 & ->).
  destruct (gir_spec _ _ _ _ Hr Ex) as [_ ->]. destruct (gir_spec _ _ _ _ Hc Ey) as [_ ->].
  rewrite H in E1, E2, E3, E4 by lia. injection E1 as <-. injection E2 as <-. injection E3 as <-. injection E4 as <-.
  rewrite !plus_INR. cbn [INR]. f_equal. ring.
Qed.

Lemma bilinear_node rows cols z i j v : (2 <= rows)%nat -> (2 <= cols)%nat -> table rows cols z -> entry z i j = Some v ->
  bilinear_on_grid (INR i) (INR j) z = Ok v.
Proof.
  intros Hr Hc T E.
  assert (Hi : (i < rows)%nat). { unfold entry in E. destruct (nth_error z i) eqn:En; [|discriminate]. apply nth_error_Some_lt in En || (assert (nth_error z i <> None) as Hn by congruence; apply nth_error_Some in Hn; destruct T; lia). }
  assert (Hj : (j < cols)%nat). { unfold entry in E. destruct (nth_error z i) as [r|] eqn:En; [|discriminate]. assert (nth_error r j <> None) as Hn by congruence. apply nth_error_Some in Hn. destruct T as [_ R]. rewrite (R r) in Hn; [lia|eapply nth_error_In; eauto]. }
  destruct (bilinear_formula _ _ _ (INR i) (INR j) T Hr Hc) as (a & b & rx & ry & z1 & z2 & z3 & z4 & Ex & Ey & Ha & Hb & E1 & E2 & E3 & E4 & ->).
  rewrite Nat.add_1_r in E2, E3, E4. rewrite (Nat.add_1_r b) in E4.
  destruct (gir_node _ _ _ _ Hr Hi Ex) as [[<- ->]|[<- ->]], (gir_node _ _ _ _ Hc Hj Ey) as [[<- ->]|[<- ->]]; f_equal;
    [rewrite E in E1; injection E1 as <-|rewrite E in E2; injection E2 as <-|rewrite E in E3; injection E3 as <-|rewrite E in E4; injection E4 as <-]; ring.
Qed.

Lemma bilinear_bounds lo hi rows cols z x y : (2 <= rows)%nat -> (2 <= cols)%nat -> table rows cols z ->
  (forall i j v, entry z i j = Some v -> lo <= v <= hi) -> 0 <= x <= INR (rows - 1) -> 0 <= y <= INR (cols - 1) ->
  exists v, bilinear_on_grid x y z = Ok v /\ lo <= v <= hi.
Proof.
  intros Hr Hc T H Hx Hy. destruct (bilinear_formula _ _ _ x y T Hr Hc) as (i & j & rx & ry & z1 & z2 & z3 & z4 & Ex & Ey & Hi & Hj & E1 & E2 & E3 & E4 & ->).
  eexists; split; [reflexivity|]. pose proof (gir_inside _ _ _ _ Hr Hx Ex) as Rx. pose proof (gir_inside _ _ _ _ Hc Hy Ey) as Ry.
  apply H in E1, E2, E3, E4.
  assert (W1 : 0 <= (1 - rx) * (1 - ry)) by (apply Rmult_le_pos; lra). assert (W2 : 0 <= (1 - rx) * ry) by (apply Rmult_le_pos; lra).
  assert (W3 : 0 <= rx * (1 - ry)) by (apply Rmult_le_pos; lra). assert (W4 : 0 <= rx * ry) by (apply Rmult_le_pos; lra).
  assert (S : (1 - rx) * (1 - ry) + (1 - rx) * ry + rx * (1 - ry) + rx * ry = 1) by ring.
  set (w1 := (1 - rx) * (1 - ry)) in *. set (w2 := (1 - rx) * ry) in *. set (w3 := rx * (1 - ry)) in *. set (w4 := rx * ry) in *.
  pose proof (Rmult_le_compat_l w1 lo z1 W1 ltac:(lra)). pose proof (Rmult_le_compat_l w1 z1 hi W1 ltac:(lra)).
  pose proof (Rmult_le_compat_l w2 lo z2 W2 ltac:(lra)). pose proof (Rmult_le_compat_l w2 z2 hi W2 ltac:(lra)).
  pose proof (Rmult_le_compat_l w3 lo z3 W3 ltac:(lra)). pose proof (Rmult_le_compat_l w3 z3 hi W3 ltac:(lra)).
  pose proof (Rmult_le_compat_l w4 lo z4 W4 ltac:(lra)). pose proof (Rmult_le_compat_l w4 z4 hi W4 ltac:(lra)).
  assert (lo = w1 * lo + w2 * lo + w3 * lo + w4 * lo) by (rewrite <- !Rmult_plus_distr_r, S; ring).
  assert (hi = w1 * hi + w2 * hi + w3 * hi + w4 * hi) by (rewrite <- !Rmult_plus_distr_r, S; ring). lra.
Qed.

(** Proofs about the averaged point spread function. *)
From Coq Require Import Reals List Lia Lra.
From Coquelicot Require Import Coquelicot.
From Verif Require Import Base AccumModel AccumProofs EvtSpec EvtModel EvtProofs MpsfModel MpsfSpec.
Import ListNotations.
Local Open Scope R_scope.
Local Open Scope list_scope.

Lemma vec_at_ok {A} (l : list A) i d : (i < length l)%nat -> vec_at l i = Ok (nth i l d).
Proof. intros H. unfold vec_at. rewrite (nth_error_nth' l d H). reflexivity. Qed.

Lemma back_ok l : l <> [] -> back l = Ok (nth (length l - 1) l 0).
Proof. intros H. unfold back. destruct l as [|a l]; [congruence|]. apply (vec_get_ok (a :: l)). simpl; lia. Qed.

Lemma mfold_push {A B} (step : list B -> A -> outcome (list B)) (h : A -> B) l acc :
  (forall acc a, In a l -> step acc a = Ok (acc ++ [h a])) -> mfold step l acc = Ok (acc ++ map h l).
Proof.
  revert acc. induction l as [|a l IH]; intros acc H; simpl.
  - now rewrite app_nil_r.
  - rewrite H by (left; reflexivity). simpl. rewrite IH by (intros; apply H; right; assumption). rewrite <- app_assoc. reflexivity.
Qed.

Lemma mfold_rows {A B} (step : list B -> A -> outcome (list B)) (h : A -> list B) l acc :
  (forall acc a, In a l -> step acc a = Ok (acc ++ h a)) -> mfold step l acc = Ok (acc ++ concat (map h l)).
Proof.
  revert acc. induction l as [|a l IH]; intros acc H; simpl.
  - now rewrite app_nil_r.
  - rewrite H by (left; reflexivity). simpl. rewrite IH by (intros; apply H; right; assumption). rewrite <- app_assoc. reflexivity.
Qed.

Lemma nth_mapseq {A} (h : nat -> A) n i d : (i < n)%nat -> nth i (map h (seq 0 n)) d = h i.
Proof.
  intros H. rewrite (nth_indep _ d (h 0%nat)) by (rewrite map_length, seq_length; exact H).
  rewrite map_nth, seq_nth by exact H. reflexivity.
Qed.

Lemma concat_rows_length {A} (h : nat -> list A) n m : (forall k, length (h k) = n) -> length (concat (map h (seq 0 m))) = (m * n)%nat.
Proof.
  intros H. assert (forall a, length (concat (map h (seq a m))) = (m * n)%nat) as G; [|apply G].
  induction m as [|m IH]; intros a; simpl; [reflexivity|]. rewrite app_length, H, IH. reflexivity.
Qed.

Lemma nth_concat_rows {A} (h : nat -> list A) n m k j d : (forall k, length (h k) = n) -> (k < m)%nat -> (j < n)%nat ->
  nth (k * n + j) (concat (map h (seq 0 m))) d = nth j (h k) d.
Proof.
  intros H. assert (forall a k, (k < m)%nat -> (j < n)%nat -> nth (k * n + j) (concat (map h (seq a m))) d = nth j (h (a + k)%nat) d) as G.
  - clear k. induction m as [|m IH]; intros a k Hk Hj; [lia|]. simpl. destruct k as [|k].
    + simpl. rewrite app_nth1 by (rewrite H; exact Hj). now rewrite Nat.add_0_r.
    + rewrite app_nth2 by (rewrite H; simpl; lia). rewrite H.
      replace (S k * n + j - n)%nat with (k * n + j)%nat by (simpl; lia). rewrite IH by lia. f_equal. f_equal. lia.
  - intros Hk Hj. rewrite G by assumption. reflexivity.
Qed.

Lemma fold_left_total {A} (f : A -> R) l : forall a, fold_left (fun v r => v + f r) l a = a + total f l.
Proof. induction l as [|x l IH]; intros a; simpl; [unfold total; simpl; ring|]. rewrite IH. unfold total. simpl. ring. Qed.

(** ** The grid of separations *)

Lemma log_grid xmin xmax n : 0 < xmin < xmax -> (2 <= n)%nat ->
  grid (createLogArray xmin xmax n) xmax /\ length (createLogArray xmin xmax n) = S n /\ nth_error (createLogArray xmin xmax n) 1 = Some xmin.
Proof.
  intros [H0 H1] Hn. unfold createLogArray. set (st := ln (xmax / xmin) / (INR n - 1)).
  assert (HL : length (map (fun i => xmin * exp (INR i * st)) (seq 0 n)) = n) by (rewrite map_length, seq_length; reflexivity).
  assert (HN : 2 <= INR n) by (apply (le_INR 2) in Hn; simpl in Hn; lra).
  assert (Hln : 0 < ln (xmax / xmin)).
  { rewrite <- ln_1. apply ln_increasing; [lra|]. apply (Rmult_lt_reg_r xmin); [lra|]. unfold Rdiv. rewrite Rmult_assoc, Rinv_l by lra. lra. }
  assert (Hst : 0 < st) by (apply Rdiv_lt_0_compat; lra).
  assert (Hnth : forall i, (i < n)%nat -> nth_error (map (fun i => xmin * exp (INR i * st)) (seq 0 n)) i = Some (xmin * exp (INR i * st))).
  { intros i Hi. rewrite nth_error_map. rewrite (nth_error_nth' _ 0%nat) by (rewrite seq_length; exact Hi). rewrite seq_nth by exact Hi. reflexivity. }
  generalize dependent (map (fun i => xmin * exp (INR i * st)) (seq 0 n)). intros L HL Hnth.
  split; [split; [reflexivity|split]|split].
  - simpl length. rewrite HL. replace (S n - 1)%nat with (S (n - 1)) by lia. simpl. rewrite Hnth by lia. f_equal.
    replace (INR (n - 1)) with (INR n - 1) by (rewrite minus_INR by lia; simpl; ring).
    unfold st. replace ((INR n - 1) * (ln (xmax / xmin) / (INR n - 1))) with (ln (xmax / xmin)) by (field; lra).
    rewrite exp_ln by (apply Rdiv_lt_0_compat; lra). field. lra.
  - intros [|i] s t Hs Ht.
    + change (nth_error L 0 = Some t) in Ht. injection Hs as <-. rewrite Hnth in Ht by lia. injection Ht as <-. apply Rmult_lt_0_compat; [lra|apply exp_pos].
    + change (nth_error L i = Some s) in Hs. change (nth_error L (S i) = Some t) in Ht. assert (Hi : (S i < n)%nat) by (rewrite <- HL; apply nth_error_Some; congruence). 
      rewrite Hnth in Hs, Ht by lia. injection Hs as <-. injection Ht as <-.
      assert (INR i * st < INR (S i) * st) by (rewrite S_INR; nra). apply Rmult_lt_compat_l; [lra|]. apply exp_increasing. assumption.
  - simpl. now rewrite HL.
  - change (nth_error L 0 = Some xmin). rewrite Hnth by lia. f_equal. simpl INR. rewrite Rmult_0_l, exp_0. ring.
Qed.

Lemma ascending_nth l : ascending l -> forall i j, (i < j)%nat -> (j < length l)%nat -> nth i l 0 < nth j l 0.
Proof.
  intros H i j Hij Hj. induction Hij as [|j Hij IH].
  - apply (H i); apply nth_error_nth'; lia.
  - eapply Rlt_trans; [apply IH; lia|]. apply (H j); apply nth_error_nth'; lia.
Qed.

Lemma ascending_nondecreasing l : ascending l -> nondecreasing l.
Proof.
  intros H i j Hij Hj. destruct (Nat.eq_dec i j) as [->|]; [lra|]. left. apply ascending_nth; try assumption; lia.
Qed.

Lemma ub_at l x k : ascending l -> (k < length l)%nat -> nth k l 0 <= x -> ((S k < length l)%nat -> x < nth (S k) l 0) ->
  std_upper_bound l x = Ok (S k).
Proof.
  intros H Hk Hlo Hhi. destruct (ub_ok l x (ascending_nondecreasing l H)) as (u & E & Hu & A & B). rewrite E. f_equal.
  destruct (Nat.lt_trichotomy u (S k)) as [L|[L|L]]; [|exact L|].
  - exfalso. assert (u <= k)%nat by lia. pose proof (B k ltac:(lia) Hk). lra.
  - exfalso. pose proof (A (S k) L). pose proof (Hhi ltac:(lia)). lra.
Qed.

Lemma ub_below l x : ascending l -> l <> [] -> x < nth 0 l 0 -> std_upper_bound l x = Ok 0%nat.
Proof.
  intros H Hl Hx. destruct (ub_ok l x (ascending_nondecreasing l H)) as (u & E & Hu & A & B). rewrite E. f_equal.
  destruct u as [|u]; [reflexivity|]. exfalso. pose proof (A 0%nat ltac:(lia)). lra.
Qed.

Lemma find_interval l x : ascending l -> l <> [] -> nth 0 l 0 <= x ->
  exists k, (k < length l)%nat /\ nth k l 0 <= x /\ ((S k < length l)%nat -> x < nth (S k) l 0).
Proof.
  intros H Hl Hx. destruct (ub_ok l x (ascending_nondecreasing l H)) as (u & E & Hu & A & B).
  destruct u as [|u].
  - exfalso. assert (0 < length l)%nat by (destruct l; [congruence|simpl; lia]). pose proof (B 0%nat ltac:(lia) ltac:(lia)). lra.
  - exists u. split; [lia|]. split; [apply A; lia|]. intros L. apply B; lia.
Qed.

(** ** Broken lines and their integrals *)

Definition line (x0 x1 y0 y1 x : R) : R := y0 + (y1 - y0) * ((x - x0) / (x1 - x0)).

Lemma broken_line_at xs ys i x : ascending xs -> length ys = length xs -> (S i < length xs)%nat ->
  nth i xs 0 <= x <= nth (S i) xs 0 ->
  broken_line xs ys x = line (nth i xs 0) (nth (S i) xs 0) (nth i ys 0) (nth (S i) ys 0) x.
Proof.
  revert ys i. induction xs as [|x0 xs IH]; intros ys i HA HL Hi Hx; [simpl in Hi; lia|].
  destruct xs as [|x1 xs]; [simpl in Hi; lia|]. destruct ys as [|y0 [|y1 ys]]; try (simpl in HL; lia).
  assert (HA' : ascending (x1 :: xs)) by (intros j s t Hs Ht; apply (HA (S j)); assumption).
  assert (K : broken_line (x0 :: x1 :: xs) (y0 :: y1 :: ys) x =
    if Rle_dec x x1 then y0 + (y1 - y0) * ((x - x0) / (x1 - x0)) else broken_line (x1 :: xs) (y1 :: ys) x) by reflexivity.
  rewrite K. clear K. destruct i as [|i].
  - cbn [nth] in *. destruct (Rle_dec x x1); [reflexivity|lra].
  - destruct (Rle_dec x x1) as [Hle|Hgt].
    + (* only the common point *)
      assert (i = 0)%nat.
      { destruct i as [|i]; [reflexivity|]. exfalso.
        pose proof (ascending_nth _ HA 1 (S (S i)) ltac:(lia) ltac:(simpl in *; lia)) as Q. cbn [nth] in Q, Hx. lra. }
      subst i. destruct xs as [|x2 xs]; [simpl in Hi; lia|]. destruct ys as [|y2 ys]; [simpl in HL; lia|].
      cbn [nth] in *. assert (x = x1) by lra. subst x.
      assert (x0 < x1) by (apply (HA 0%nat); reflexivity). assert (x1 < x2) by (apply (HA 1%nat); reflexivity).
      unfold line. field. lra.
    + change (nth (S i) (x0 :: x1 :: xs) 0) with (nth i (x1 :: xs) 0) in *. 
      change (nth (S (S i)) (x0 :: x1 :: xs) 0) with (nth (S i) (x1 :: xs) 0) in *.
      change (nth (S i) (y0 :: y1 :: ys) 0) with (nth i (y1 :: ys) 0). 
      change (nth (S (S i)) (y0 :: y1 :: ys) 0) with (nth (S i) (y1 :: ys) 0).
      apply IH; [exact HA'|simpl in *; lia|simpl in *; lia|exact Hx].
Qed.

Definition seg_value (t1 t2 t y1 y2 : R) : R :=
  let slope := (y2 - y1) / (t2 - t1) in slope * (t * t - t1 * t1) / 2 + (y1 - t1 * slope) * (t - t1).

Lemma segment_ok t1 t2 t y1 y2 : t1 < t2 -> segment t1 t2 t y1 y2 = Ok (seg_value t1 t2 t y1 y2).
Proof. intros H. unfold segment. destruct (Reqb_spec t1 t2); [lra|]. reflexivity. Qed.

Lemma seg_value_scale t1 t2 t y1 y2 c : seg_value t1 t2 t (y1 * c) (y2 * c) = seg_value t1 t2 t y1 y2 * c.
Proof. unfold seg_value, Rdiv. ring. Qed.

Lemma line_RInt x0 x1 y0 y1 x : x0 < x1 -> is_RInt (line x0 x1 y0 y1) x0 x (seg_value x0 x1 x y0 y1).
Proof.
  intros H.
  set (F := fun t => (y1 - y0) / (x1 - x0) * (t * t - x0 * x0) / 2 + (y0 - x0 * ((y1 - y0) / (x1 - x0))) * (t - x0)).
  replace (seg_value x0 x1 x y0 y1) with (minus (F x) (F x0)) by (unfold F, seg_value, minus, plus, opp; simpl; field; lra).
  apply (is_RInt_derive (V := R_CompleteNormedModule)).
  - intros t _. unfold F, line. auto_derive; [exact I|]. field. lra.
  - intros t _. apply (ex_derive_continuous (V := R_NormedModule)). unfold line. auto_derive. exact I.
Qed.

(** Integral of the broken line up to node [j], and on into the next segment. *)
Fixpoint upto (xs ys : list R) (j : nat) : R :=
  match j with
  | O => 0
  | S j' => upto xs ys j' + seg_value (nth j' xs 0) (nth j xs 0) (nth j xs 0) (nth j' ys 0) (nth j ys 0)
  end.

Lemma broken_seg xs ys j x : ascending xs -> length ys = length xs -> (S j < length xs)%nat ->
  nth j xs 0 <= x <= nth (S j) xs 0 ->
  is_RInt (broken_line xs ys) (nth j xs 0) x (seg_value (nth j xs 0) (nth (S j) xs 0) x (nth j ys 0) (nth (S j) ys 0)).
Proof.
  intros HA HL Hj Hx. pose proof (ascending_nth xs HA j (S j) ltac:(lia) Hj) as Hlt.
  apply (is_RInt_ext (line (nth j xs 0) (nth (S j) xs 0) (nth j ys 0) (nth (S j) ys 0))).
  - intros t Ht. rewrite Rmin_left, Rmax_right in Ht by lra. symmetry. apply broken_line_at; try assumption. lra.
  - apply line_RInt. exact Hlt.
Qed.

Lemma broken_upto xs ys : ascending xs -> length ys = length xs -> forall j, (j < length xs)%nat ->
  is_RInt (broken_line xs ys) (nth 0 xs 0) (nth j xs 0) (upto xs ys j).
Proof.
  intros HA HL. induction j as [|j IH]; intros Hj.
  - simpl upto. apply (is_RInt_point (V := R_NormedModule)).
  - simpl upto. apply (is_RInt_Chasles (V := R_NormedModule)) with (nth j xs 0).
    + apply IH. lia.
    + apply broken_seg; try assumption. pose proof (ascending_nth xs HA j (S j) ltac:(lia) Hj). lra.
Qed.

Lemma broken_RInt xs ys j x : ascending xs -> length ys = length xs -> (S j < length xs)%nat ->
  nth j xs 0 <= x <= nth (S j) xs 0 ->
  is_RInt (broken_line xs ys) (nth 0 xs 0) x
    (upto xs ys j + seg_value (nth j xs 0) (nth (S j) xs 0) x (nth j ys 0) (nth (S j) ys 0)).
Proof.
  intros HA HL Hj Hx. apply (is_RInt_Chasles (V := R_NormedModule)) with (nth j xs 0).
  - apply broken_upto; try assumption. lia.
  - apply broken_seg; assumption.
Qed.

Lemma rad_degrees x : rad x = degrees x. Proof. reflexivity. Qed.

Lemma degrees_lt a b : a < b -> degrees a < degrees b.
Proof. intros H. unfold degrees. pose proof PI_RGT_0. nra. Qed.
Lemma degrees_le a b : a <= b -> degrees a <= degrees b.
Proof. intros H. unfold degrees. pose proof PI_RGT_0. nra. Qed.

Lemma ascending_degrees l : ascending l -> ascending (map degrees l).
Proof.
  intros H i s t Hs Ht. rewrite nth_error_map in Hs, Ht.
  destruct (nth_error l i) eqn:E1; [|discriminate]. destruct (nth_error l (S i)) eqn:E2; [|discriminate].
  injection Hs as <-. injection Ht as <-. apply degrees_lt. exact (H i _ _ E1 E2).
Qed.

Lemma nth_degrees l i : (i < length l)%nat -> nth i (map degrees l) 0 = degrees (nth i l 0).
Proof. intros H. rewrite (nth_indep _ 0 (degrees 0)) by (rewrite map_length; exact H). apply map_nth. Qed.
Lemma nth_ring f l i : (i < length l)%nat -> nth i (map (ring f) l) 0 = ring f (nth i l 0).
Proof. intros H. rewrite (nth_indep _ 0 (ring f 0)) by (rewrite map_length; exact H). apply map_nth. Qed.

(** Cone integral at node [j] and beyond. *)
Definition node (f : R -> R) (seps : list R) (j : nat) : R := upto (map degrees seps) (map (ring f) seps) j.
Definition piece (f : R -> R) (seps : list R) (j : nat) (a : R) : R :=
  seg_value (degrees (nth j seps 0)) (degrees (nth (S j) seps 0)) (degrees a) (ring f (nth j seps 0)) (ring f (nth (S j) seps 0)).

Lemma grid_asc seps smax : grid seps smax -> ascending seps.
Proof. intros (_ & _ & H). exact H. Qed.

Lemma cone_node f seps smax j : grid seps smax -> (j < length seps)%nat -> cone f seps (nth j seps 0) (node f seps j).
Proof.
  intros G Hj. pose proof (grid_asc _ _ G) as HA. destruct G as (G0 & _ & _). unfold cone.
  assert (N0 : nth 0 seps 0 = 0) by (exact (nth_error_nth seps 0 0 G0)).
  pose proof (broken_upto (map degrees seps) (map (ring f) seps) (ascending_degrees _ HA) ltac:(now rewrite !map_length) j ltac:(now rewrite map_length)) as Q.
  rewrite !nth_degrees in Q by lia. rewrite N0 in Q. replace (degrees 0) with 0 in Q by (unfold degrees; field). exact Q.
Qed.

Lemma cone_piece f seps smax j a : grid seps smax -> (S j < length seps)%nat -> nth j seps 0 <= a <= nth (S j) seps 0 ->
  cone f seps a (node f seps j + piece f seps j a).
Proof.
  intros G Hj Ha. pose proof (grid_asc _ _ G) as HA. destruct G as (G0 & _ & _). unfold cone.
  assert (N0 : nth 0 seps 0 = 0) by (exact (nth_error_nth seps 0 0 G0)).
  pose proof (broken_RInt (map degrees seps) (map (ring f) seps) j (degrees a) (ascending_degrees _ HA) ltac:(now rewrite !map_length) ltac:(now rewrite map_length)) as Q.
  rewrite !nth_degrees in Q by lia. rewrite !nth_ring in Q by lia. rewrite N0 in Q. replace (degrees 0) with 0 in Q by (unfold degrees; field).
  apply Q. split; apply degrees_le; lra.
Qed.

Lemma ring_scale f c s : ring (fun x => f x * c) s = ring f s * c.
Proof. unfold ring. ring. Qed.

Lemma piece_scale f c seps j a : piece (fun x => f x * c) seps j a = piece f seps j a * c.
Proof. unfold piece. rewrite !ring_scale. apply seg_value_scale. Qed.

Lemma node_S f seps j : (S j < length seps)%nat -> node f seps (S j) = node f seps j + piece f seps j (nth (S j) seps 0).
Proof.
  intros H. unfold node. simpl upto. unfold piece. rewrite !nth_degrees, !nth_ring by lia. reflexivity.
Qed.

Lemma node_scale f c seps j : (j < length seps)%nat -> node (fun x => f x * c) seps j = node f seps j * c.
Proof.
  induction j as [|j IH]; intros H; [unfold node; simpl; ring|].
  rewrite !node_S by exact H. rewrite IH by lia. rewrite piece_scale. ring.
Qed.

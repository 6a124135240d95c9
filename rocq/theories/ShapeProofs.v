(** Proofs about the shapes of extended sources. *)
From Coq Require Import Reals List Lia Lra Bool.
From Coquelicot Require Import Coquelicot.
From Verif Require Import Base AccumModel AccumProofs EvtModel EvtProofs TrapModel TrapSpec TrapProofs ShapeModel ShapeSpec.
Import ListNotations.
Local Open Scope R_scope.
Local Open Scope list_scope.

Lemma nth_lt {A} (l : list A) i x : nth_error l i = Some x -> (i < length l)%nat.
Proof. intros H. apply nth_error_Some. congruence. Qed.

Lemma rising_nth l : rising l -> forall i j, (i < j)%nat -> (j < length l)%nat -> nth i l 0 < nth j l 0.
Proof.
  intros H i j Hij Hj. induction Hij as [|j Hij IH].
  - apply (H i); apply nth_error_nth'; lia.
  - eapply Rlt_trans; [apply IH; lia|]. apply (H j); apply nth_error_nth'; lia.
Qed.

Lemma not_falling_nth l : not_falling l -> nondecreasing l.
Proof.
  intros H i j Hij Hj. induction Hij as [|j Hij IH].
  - apply (H i); apply nth_error_nth'; lia.
  - eapply Rle_trans; [apply IH; lia|]. apply (H j); apply nth_error_nth'; lia.
Qed.

Lemma rising_not_falling l : rising l -> not_falling l.
Proof. intros H i a b A B. left. exact (H i a b A B). Qed.

Lemma front_nth (l : list R) : l <> [] -> front l = Ok (nth 0 l 0).
Proof. destruct l; [congruence|reflexivity]. Qed.

Lemma back_nth (l : list R) : l <> [] -> back l = Ok (nth (length l - 1) l 0).
Proof. intros H. unfold back. destruct l as [|x l]; [congruence|]. apply vec_get_ok. simpl. lia. Qed.

(** The last step, for a given interval. *)
Lemma finish theta profile i t0 p0 t1 p1 x : neighbours theta profile i t0 p0 t1 p1 ->
  obind (vec_at theta i) (fun t0 => obind (vec_at theta (i + 1)) (fun t1 => obind (vec_at profile (i + 1)) (fun p1 => obind (vec_at profile i) (fun p0 =>
    if Reqb (t1 - t0) 0 then UB else Ok ((x - t0) / (t1 - t0) * (p1 - p0) + p0))))) =
  (if Reqb (t1 - t0) 0 then UB else Ok (straight t0 p0 t1 p1 x)).
Proof.
  intros (A & B & C & D). unfold vec_at. rewrite Nat.add_1_r, A. cbn [obind]. rewrite B. cbn [obind]. rewrite D. cbn [obind]. rewrite C. cbn [obind].
  destruct (Reqb_spec (t1 - t0) 0); [reflexivity|]. unfold straight. f_equal. field. assumption.
Qed.

(** Inside the table. *)
Lemma value_inside theta profile i t0 p0 t1 p1 x : not_falling theta -> neighbours theta profile i t0 p0 t1 p1 -> t0 <= x < t1 -> nth 0 theta 0 < x ->
  valueAtOffset theta profile x = Ok (straight t0 p0 t1 p1 x).
Proof.
  intros H N (L & U) F. pose proof N as (A & B & _). pose proof (not_falling_nth _ H) as ND. pose proof (nth_lt _ _ _ B) as LB.
  assert (NE : theta <> []) by (intros ->; simpl in LB; lia). unfold valueAtOffset. rewrite (back_nth _ NE), (front_nth _ NE). cbn [obind].
  assert (E1 : nth (S i) theta 0 = t1) by (now apply nth_error_nth). assert (E0 : nth i theta 0 = t0) by (now apply nth_error_nth).
  assert (LL : x < nth (length theta - 1) theta 0). { destruct (Nat.eq_dec (S i) (length theta - 1)) as [<-|Q]; [lra|]. pose proof (ND (S i) (length theta - 1)%nat ltac:(lia) ltac:(lia)). lra. }
  destruct (Rleb_spec (nth (length theta - 1) theta 0) x); [lra|]. destruct (Rltb_spec (nth 0 theta 0) x); [|contradiction].
  destruct (ub_ok theta x ND) as (u & E & Hu & P & Q). rewrite E. cbn [obind].
  assert (u = S i) as ->. { destruct (Nat.lt_trichotomy u (S i)) as [T|[T|T]]; [|exact T|].
    - exfalso. pose proof (Q i ltac:(lia) ltac:(lia)). lra.
    - exfalso. pose proof (P (S i) T). lra. }
  cbn [obind]. rewrite (finish _ _ _ _ _ _ _ _ N). destruct (Reqb_spec (t1 - t0) 0); [lra|reflexivity].
Qed.

(** Up to the first point, and from the last. *)
Lemma value_below theta profile t0 p0 t1 p1 x : neighbours theta profile 0 t0 p0 t1 p1 -> x <= t0 -> x < nth (length theta - 1) theta 0 ->
  valueAtOffset theta profile x = if Reqb (t1 - t0) 0 then UB else Ok (straight t0 p0 t1 p1 x).
Proof.
  intros N L LL. pose proof N as (A & B & _). pose proof (nth_lt _ _ _ B) as LB. assert (NE : theta <> []) by (intros ->; simpl in LB; lia).
  unfold valueAtOffset. rewrite (back_nth _ NE), (front_nth _ NE). cbn [obind]. assert (E0 : nth 0 theta 0 = t0) by (now apply nth_error_nth).
  destruct (Rleb_spec (nth (length theta - 1) theta 0) x); [lra|]. destruct (Rltb_spec (nth 0 theta 0) x); [lra|]. cbn [obind]. apply (finish _ _ _ _ _ _ _ _ N).
Qed.

Lemma value_beyond theta profile i t0 p0 t1 p1 x : neighbours theta profile i t0 p0 t1 p1 -> length theta = S (S i) -> t1 <= x ->
  valueAtOffset theta profile x = if Reqb (t1 - t0) 0 then UB else Ok (straight t0 p0 t1 p1 x).
Proof.
  intros N HL L. pose proof N as (A & B & _). assert (NE : theta <> []) by (intros ->; discriminate).
  unfold valueAtOffset. rewrite (back_nth _ NE), (front_nth _ NE). cbn [obind]. assert (E1 : nth (length theta - 1) theta 0 = t1) by (rewrite HL; simpl; now apply nth_error_nth).
  rewrite E1. destruct (Rleb_spec t1 x); [|lra]. rewrite HL. destruct (Nat.ltb_spec (S (S i)) 2); [lia|]. cbn [obind]. replace (S (S i) - 2)%nat with i by lia. apply (finish _ _ _ _ _ _ _ _ N).
Qed.

Lemma nb_at theta profile i : length profile = length theta -> (S i < length theta)%nat ->
  neighbours theta profile i (nth i theta 0) (nth i profile 0) (nth (S i) theta 0) (nth (S i) profile 0).
Proof. intros H1 H2. repeat split; apply nth_error_nth'; lia. Qed.

(** Everywhere in a rising table: an interval that serves. *)
Lemma value_rising theta profile i t0 p0 t1 p1 x : rising theta -> neighbours theta profile i t0 p0 t1 p1 ->
  (t0 <= x \/ i = 0%nat) -> (x < t1 \/ length theta = S (S i)) -> valueAtOffset theta profile x = Ok (straight t0 p0 t1 p1 x).
Proof.
  intros H N L U. pose proof N as (A & B & _). pose proof (H i t0 t1 A B) as LT. pose proof (nth_lt _ _ _ B) as LB.
  assert (E1 : nth (S i) theta 0 = t1) by (now apply nth_error_nth). assert (E0 : nth i theta 0 = t0) by (now apply nth_error_nth).
  assert (NZ : Reqb (t1 - t0) 0 = false) by (destruct (Reqb_spec (t1 - t0) 0); [lra|reflexivity]).
  destruct (Rlt_le_dec x t1) as [X|X].
  - assert (LL : x < nth (length theta - 1) theta 0). { destruct (Nat.eq_dec (S i) (length theta - 1)) as [<-|Q]; [lra|]. pose proof (rising_nth _ H (S i) (length theta - 1)%nat ltac:(lia) ltac:(lia)). lra. }
    destruct (Rle_lt_dec x (nth 0 theta 0)) as [Y|Y].
    + assert (i = 0%nat). { destruct (Nat.eq_dec i 0) as [|Q]; [assumption|]. destruct L as [L|L]; [|contradiction]. pose proof (rising_nth _ H 0%nat i ltac:(lia) ltac:(lia)). lra. }
      subst i. rewrite (value_below _ _ _ _ _ _ _ N) by lra. now rewrite NZ.
    + destruct (Rle_lt_dec t0 x) as [Z|Z]; [apply (value_inside _ _ _ _ _ _ _ _ (rising_not_falling _ H) N); [lra|exact Y]|]. destruct L as [L|L]; [lra|]. subst i. lra.
  - destruct U as [U|U]; [lra|]. rewrite (value_beyond _ _ _ _ _ _ _ _ N U X). now rewrite NZ.
Qed.

(** Some interval serves. *)
Lemma some_interval theta x : rising theta -> (2 <= length theta)%nat ->
  exists i, (S i < length theta)%nat /\ (nth i theta 0 <= x \/ i = 0%nat) /\ (x < nth (S i) theta 0 \/ length theta = S (S i)).
Proof.
  intros H H2. destruct (ub_ok theta x (not_falling_nth _ (rising_not_falling _ H))) as (u & _ & Hu & P & Q).
  destruct (Nat.eq_dec u 0) as [->|U0]; [exists 0%nat; split; [lia|]; split; [now right|]; left; apply Q; lia|].
  destruct (Nat.eq_dec u (length theta)) as [->|UL].
  - exists (length theta - 2)%nat. split; [lia|]. split; [left; apply P; lia|right; lia].
  - exists (u - 1)%nat. split; [lia|]. split; [left; apply P; lia|]. left. replace (S (u - 1)) with u by lia. apply Q; lia.
Qed.

(** A line between its ends. *)
Lemma straight_between t0 p0 t1 p1 x lo hi : t0 < t1 -> t0 <= x <= t1 -> lo <= p0 <= hi -> lo <= p1 <= hi -> lo <= straight t0 p0 t1 p1 x <= hi.
Proof.
  intros H X P Q. unfold straight. set (u := (x - t0) / (t1 - t0)). assert (U : 0 <= u <= 1).
  { unfold u. split; [apply Rmult_le_reg_r with (t1 - t0); [lra|]; unfold Rdiv; rewrite Rmult_assoc, Rinv_l by lra; lra|]. apply Rmult_le_reg_r with (t1 - t0); [lra|]. unfold Rdiv. rewrite Rmult_assoc, Rinv_l by lra. lra. }
  replace (p0 + (p1 - p0) * (x - t0) / (t1 - t0)) with (p0 + (p1 - p0) * u) by (unfold u; field; lra). nra.
Qed.

(** ** The trapezoids of the angular integral *)

Lemma area_trapezoids pts : area pts = trapezoids pts.
Proof. induction pts as [|p [|q l] IH]; [reflexivity|reflexivity|]. cbn [area trapezoids] in *. now rewrite IH. Qed.

Lemma angular_ok theta profile : length profile = length theta -> (2 <= length theta)%nat ->
  angularIntegral theta profile = Ok (area (map (fun '(t, p) => (radians t, 2 * PI * sin (radians t) * p)) (combine theta profile))).
Proof.
  intros HL H2. unfold angularIntegral.
  set (X := fun n => map (fun t => t * PI / 180) (firstn n theta)). set (Y := fun n => map (fun '(t, p) => sin (t * PI / 180) * p * 2 * PI) (firstn n (combine theta profile))).
  assert (FS : forall A (l : list A) n (x : A), nth_error l n = Some x -> firstn (S n) l = firstn n l ++ [x]).
  { intros A l. induction l as [|y l IH]; intros [|n] x E; try discriminate; [injection E as ->; reflexivity|]. cbn [firstn app]. f_equal. now apply IH. }
  assert (L : forall n, (n <= length theta)%nat -> mfold (fun '(xs, ys) i => obind (vec_at theta i) (fun t => let x := t * PI / 180 in obind (vec_at profile i) (fun p => Ok (xs ++ [x], ys ++ [sin x * p * 2 * PI])))) (seq 0 n) ([], []) = Ok (X n, Y n)).
  { induction n as [|n IH]; intros Hn; [reflexivity|]. rewrite seq_S, mfold_app, IH by lia. cbn [obind mfold]. rewrite Nat.add_0_l. unfold vec_at. rewrite (nth_error_nth' theta 0) by lia. cbn [obind]. rewrite (nth_error_nth' profile 0) by lia. cbn [obind].
    unfold X, Y. rewrite (FS _ theta n (nth n theta 0)) by (apply nth_error_nth'; lia). rewrite (FS _ (combine theta profile) n (nth n theta 0, nth n profile 0)).
    - now rewrite !map_app.
    - rewrite (nth_error_nth' _ (0, 0)) by (rewrite combine_length; lia). now rewrite combine_nth by lia. }
  rewrite L by lia. cbn [obind fst snd]. unfold X, Y. rewrite firstn_all. rewrite (firstn_all2 (combine theta profile)) by (rewrite combine_length; lia).
  cbn [integral compute]. rewrite lin_trapezoids by (rewrite ?map_length, ?combine_length; lia). f_equal. match goal with |- ?a = area ?l => change (a = trapezoids l) end. f_equal. clear -HL.
  revert profile HL. induction theta as [|t theta IH]; intros [|p profile] HL; try discriminate; [reflexivity|]. cbn [map combine]. f_equal; [|apply IH; now injection HL].
  unfold radians. f_equal. ring.
Qed.

(** ** Templates *)

Lemma read_ok lines theta profile : (length theta = length profile)%nat -> not_falling theta ->
  (snd (read_lines lines theta profile) = Ok tt <->
   Forall (fun l => (2 <= length l)%nat) lines /\ not_falling (theta ++ map (hd 0) lines)) /\
  (snd (read_lines lines theta profile) = Ok tt -> fst (read_lines lines theta profile) = (theta ++ map (hd 0) lines, profile ++ map (fun l => nth 1 l 0) lines)) /\
  (snd (read_lines lines theta profile) = Ok tt \/ snd (read_lines lines theta profile) = Throw).
Proof.
  revert theta profile. induction lines as [|l lines IH]; intros theta profile HL HN.
  - cbn [read_lines snd fst map]. rewrite !app_nil_r. split; [split; [intros _; split; [constructor|exact HN]|reflexivity]|]. split; [reflexivity|now left].
  - cbn [read_lines]. destruct l as [|t l]; [cbn [snd fst]; split; [split; [discriminate|intros (F & _); inversion F; simpl in *; lia]|split; [discriminate|now right]]|].
    destruct l as [|p l]; [cbn [snd fst]; split; [split; [discriminate|intros (F & _); inversion F; simpl in *; lia]|split; [discriminate|now right]]|].
    assert (LAST : forall a, theta <> [] -> nth_error theta (length theta - 1) = Some a -> last theta 0 = a).
    { intros a NE E. rewrite <- (nth_error_nth _ _ 0 E). clear -NE. induction theta as [|x [|y th] IH]; [congruence|reflexivity|]. cbn [last]. cbn [last] in IH. rewrite IH by discriminate. cbn [length nth Nat.sub]. now rewrite Nat.sub_0_r. }
    assert (SNOC : not_falling (theta ++ [t]) <-> match theta with [] => true = true | _ => last theta 0 <= t end).
    { split.
      - intros Q. destruct theta as [|x th] eqn:ET; [reflexivity|]. rewrite <- ET in *. assert (LT : (0 < length theta)%nat) by (rewrite ET; simpl; lia). rewrite (LAST (nth (length theta - 1) theta 0)) by (try (rewrite ET; discriminate); apply nth_error_nth'; lia).
        apply (Q (length theta - 1)%nat); [rewrite nth_error_app1 by lia; apply nth_error_nth'; lia|]. rewrite nth_error_app2 by lia. replace (S (length theta - 1) - length theta)%nat with 0%nat by lia. reflexivity.
      - intros Q i a b A B. destruct (lt_dec (S i) (length theta)) as [C|C]; [rewrite nth_error_app1 in A, B by lia; exact (HN i a b A B)|].
        pose proof (nth_lt _ _ _ B) as LB. rewrite app_length in LB. simpl in LB. assert (S i = length theta) by lia. rewrite nth_error_app1 in A by lia. rewrite nth_error_app2 in B by lia. replace (S i - length theta)%nat with 0%nat in B by lia. injection B as <-.
        destruct theta as [|x th] eqn:ET; [simpl in *; lia|]. rewrite <- ET in *. rewrite (LAST a) in Q; [exact Q|rewrite ET; discriminate|]. now replace (length theta - 1)%nat with i by lia. }
    assert (APP : theta ++ map (hd 0) ((t :: p :: l) :: lines) = (theta ++ [t]) ++ map (hd 0) lines) by (rewrite <- app_assoc; reflexivity).
    assert (PRE : not_falling (theta ++ map (hd 0) ((t :: p :: l) :: lines)) -> not_falling (theta ++ [t])).
    { rewrite APP. intros Q i a b A B. apply (Q i a b); rewrite nth_error_app1 by (eapply nth_lt; eassumption); assumption. }
    destruct (match theta with [] => false | _ => Rltb t (last theta 0) end) eqn:EB.
    + cbn [snd fst]. split; [split; [discriminate|]|split; [discriminate|now right]]. intros (_ & Q). apply PRE, SNOC in Q. destruct theta; [discriminate|]. destruct (Rltb_spec t (last (r :: theta) 0)); [lra|discriminate].
    + assert (HN' : not_falling (theta ++ [t])). { apply SNOC. destruct theta; [reflexivity|]. destruct (Rltb_spec t (last (r :: theta) 0)); [discriminate|lra]. }
      destruct (IH (theta ++ [t]) (profile ++ [p]) ltac:(rewrite !app_length; simpl; lia) HN') as (I1 & I2 & I3). split; [|split; [|exact I3]].
      * rewrite I1, APP. split; intros (A & B); (split; [|exact B]); [constructor; [simpl; lia|exact A]|now inversion A].
      * intros E. rewrite (I2 E). rewrite <- !app_assoc. reflexivity.
Qed.

(** ** Integrals *)

Lemma ring_integral c R0 : is_RInt (fun t => 2 * PI * t * c) 0 R0 (PI * c * R0 * R0).
Proof.
  evar_last.
  - apply (is_RInt_derive (fun t => PI * c * (t * t))); intros t _; [auto_derive; [exact I|ring]|]. apply (ex_derive_continuous (V := R_NormedModule)). auto_derive. exact I.
  - unfold minus, plus, opp. simpl. ring.
Qed.

Lemma gauss_integral s R0 : s <> 0 -> is_RInt (fun t => 2 * PI * t * (1 / (2 * PI * s * s) * exp (- t * t / (2 * s * s)))) 0 R0 (1 - exp (- R0 * R0 / (2 * s * s))).
Proof.
  intros H. pose proof PI_RGT_0. evar_last.
  - apply (is_RInt_derive (fun t => - exp (- t * t / (2 * s * s)))); intros t _; [auto_derive; [exact I|]|].
    + unfold Rdiv. simpl. field. split; lra.
    + apply (ex_derive_continuous (V := R_NormedModule)). auto_derive. exact I.
  - unfold minus, plus, opp. simpl. rewrite Ropp_0, !Rmult_0_l. unfold Rdiv. rewrite Rmult_0_l, exp_0. ring.
Qed.

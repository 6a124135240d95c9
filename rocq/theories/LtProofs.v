From Coq Require Import Reals Lra Lia.
From Coquelicot Require Import Coquelicot.
From Verif Require Import Base AccumModel AccumProofs EvtModel EvtProofs LtModel LtSpec.
Local Open Scope R_scope.

Lemma inside_spec t i : Bool.reflect (fst i <= t < snd i) (inside t i).
Proof. unfold inside. destruct (Rleb_spec (fst i) t); destruct (Rltb_spec t (snd i)); simpl; constructor; lra. Qed.

Lemma const_RInt (f : R -> R) (c a b : R) : a <= b -> (forall t, a < t < b -> f t = c) -> is_RInt f a b (c * (b - a)).
Proof.
  intros L H. apply (is_RInt_ext (V := R_NormedModule) (fun _ => c)).
  - intros t. rewrite Rmin_left, Rmax_right by lra. intros Ht. symmetry. now apply H.
  - replace (c * (b - a)) with (scal (b - a) c) by (unfold scal; simpl; unfold mult; simpl; ring). apply @is_RInt_const.
Qed.
Lemma zero_RInt (f : R -> R) (a b : R) : a <= b -> (forall t, a < t < b -> f t = 0) -> is_RInt f a b 0.
Proof. intros L H. pose proof (const_RInt f 0 a b L H) as I. rewrite Rmult_0_l in I. exact I. Qed.
(** A function that is zero outside of a part has the integral of that part. *)
Lemma part_RInt (f : R -> R) (a lo hi b v : R) : a <= lo -> lo <= hi -> hi <= b ->
  (forall t, a < t < lo -> f t = 0) -> (forall t, hi < t < b -> f t = 0) -> is_RInt f lo hi v -> is_RInt f a b v.
Proof.
  intros A B C Z1 Z2 I.
  pose proof (const_RInt f 0 a lo A Z1) as I1. pose proof (const_RInt f 0 hi b C Z2) as I2.
  rewrite Rmult_0_l in I1, I2.
  pose proof (is_RInt_Chasles (V := R_NormedModule) _ _ _ _ _ _ I1 I) as I3.
  pose proof (is_RInt_Chasles (V := R_NormedModule) _ _ _ _ _ _ I3 I2) as I4.
  eapply eq_ind; [exact I4|]. unfold plus; simpl; ring.
Qed.

Lemma duration_inside i s e : s <= e -> duration (fun t => inside t i) s e (overlap i (s, e)).
Proof.
  intros L. unfold duration, overlap, indicator. cbn [fst snd].
  pose proof (Rmax_l (fst i) s). pose proof (Rmax_r (fst i) s). pose proof (Rmin_l (snd i) e). pose proof (Rmin_r (snd i) e).
  destruct (Rltb_spec (Rmax (fst i) s) (Rmin (snd i) e)) as [H3|H3].
  - apply part_RInt with (Rmax (fst i) s) (Rmin (snd i) e); try lra.
    + intros t Ht. destruct (inside_spec t i) as [I|I]; auto. exfalso. unfold Rmax in Ht. destruct (Rle_dec (fst i) s); lra.
    + intros t Ht. destruct (inside_spec t i) as [I|I]; auto. exfalso. unfold Rmin in Ht. destruct (Rle_dec (snd i) e); lra.
    + replace (Rmin (snd i) e - Rmax (fst i) s) with (1 * (Rmin (snd i) e - Rmax (fst i) s)) by ring. apply const_RInt; [lra|].
      intros t Ht. destruct (inside_spec t i) as [I|I]; auto. exfalso. apply I. lra.
  - apply zero_RInt; auto.
    intros t Ht. destruct (inside_spec t i) as [I|I]; auto. exfalso. apply H3. unfold Rmax, Rmin. destruct (Rle_dec (fst i) s), (Rle_dec (snd i) e); lra.
Qed.

Lemma in_order_cons i l : in_order (i :: l) -> in_order l. Proof. simpl. tauto. Qed.
Lemma in_order_after i l : in_order (i :: l) -> forall j, In j l -> snd i <= fst j.
Proof.
  revert i. induction l as [|k l IH]; intros i H j Hj; [contradiction|].
  pose proof H as (A & B & C). destruct Hj as [<-|Hj]; auto. pose proof (IH k C j Hj). destruct C as (C & _ & _). lra.
Qed.
Lemma one_of l : in_order l -> forall t, indicator (fun t => existsb (inside t) l) t = Rsum (map (fun g => indicator (fun t => inside t g) t) l).
Proof.
  induction l as [|i l IH]; intros H t. { unfold Rsum. simpl. unfold indicator. reflexivity. }
  specialize (IH (in_order_cons _ _ H) t). unfold indicator in *. cbn [existsb map]. unfold Rsum in *. cbn [fold_right].
  rewrite <- IH. destruct (inside_spec t i) as [I|I]; cbn [orb].
  - destruct (existsb (inside t) l) eqn:E; [|lra]. exfalso. apply existsb_exists in E. destruct E as (j & Hj & Ij).
    destruct (inside_spec t j) as [J|J]; [|discriminate]. pose proof (in_order_after i l H j Hj). lra.
  - lra.
Qed.
Lemma duration_gtis l s e : in_order l -> s <= e -> duration (fun t => existsb (inside t) l) s e (Rsum (map (fun g => overlap g (s, e)) l)).
Proof.
  intros O L. unfold duration. apply (is_RInt_ext (V := R_NormedModule) (fun t => Rsum (map (fun g => indicator (fun t => inside t g) t) l))).
  { intros t _. symmetry. now apply one_of. }
  clear O. induction l as [|i l IH].
  - unfold Rsum. simpl. now apply zero_RInt.
  - unfold Rsum in *. cbn [map fold_right]. apply (is_RInt_plus (V := R_NormedModule)); auto. now apply duration_inside.
Qed.

(** ** The window of GTIs *)
Lemma in_order_nth l : in_order l -> (forall i, (i < length l)%nat -> fst (nth i l (0, 0)) <= snd (nth i l (0, 0))) /\ (forall i j, (i < j)%nat -> (j < length l)%nat -> snd (nth i l (0, 0)) <= fst (nth j l (0, 0))).
Proof.
  induction l as [|k l IH]; intros H; [split; simpl; intros; lia|].
  destruct (IH (in_order_cons _ _ H)) as (A & B). pose proof (in_order_after k l H) as F. destruct H as (H & _). split.
  - intros [|i] Hi; [exact H|]. simpl in *. apply A. lia.
  - intros [|i] [|j] Hij Hj; try lia; simpl in *.
    + apply F. apply nth_In. lia.
    + apply B; lia.
Qed.
Lemma map_fst_nth (l : list (R * R)) i : nth i (map fst l) 0 = fst (nth i l (0, 0)).
Proof. now rewrite <- (map_nth fst). Qed.
Lemma map_snd_nth (l : list (R * R)) i : nth i (map snd l) 0 = snd (nth i l (0, 0)).
Proof. now rewrite <- (map_nth snd). Qed.
Lemma overlap_nonneg a b : 0 <= overlap a b.
Proof. unfold overlap. destruct (Rltb_spec (Rmax (fst a) (fst b)) (Rmin (snd a) (snd b))); lra. Qed.
Lemma overlap_before a b : snd a <= fst b -> overlap a b = 0.
Proof.
  intros H. unfold overlap. destruct (Rltb_spec (Rmax (fst a) (fst b)) (Rmin (snd a) (snd b))) as [C|]; auto. exfalso.
  pose proof (Rmax_r (fst a) (fst b)). pose proof (Rmin_l (snd a) (snd b)). lra.
Qed.
Lemma overlap_after a b : snd b <= fst a -> overlap a b = 0.
Proof.
  intros H. unfold overlap. destruct (Rltb_spec (Rmax (fst a) (fst b)) (Rmin (snd a) (snd b))) as [C|]; auto. exfalso.
  pose proof (Rmax_l (fst a) (fst b)). pose proof (Rmin_r (snd a) (snd b)). lra.
Qed.
Lemma skipn_nth {A} (l : list A) n i d : nth i (skipn n l) d = nth (n + i) l d.
Proof. revert n. induction l as [|x l IH]; intros [|n]; simpl; auto. destruct i; auto. Qed.
Lemma sum_split (f : nat -> R) n a b : (a <= b)%nat -> (b <= n)%nat -> (forall i, (i < a)%nat -> f i = 0) -> (forall i, (b <= i)%nat -> (i < n)%nat -> f i = 0) ->
  Rsum (map f (seq 0 n)) = Rsum (map f (seq a (b - a))).
Proof.
  intros A B Z1 Z2. replace n with (a + ((b - a) + (n - b)))%nat at 1 by lia. rewrite !seq_app, !map_app. unfold Rsum. rewrite !fold_right_app. simpl.
  assert (Z : forall k m c, (forall i, (m <= i)%nat -> (i < m + k)%nat -> f i = 0) -> fold_right Rplus c (map f (seq m k)) = c).
  { induction k; intros m c H; simpl; auto. rewrite IHk by (intros; apply H; lia). rewrite H by lia. ring. }
  rewrite (Z a 0%nat) by (intros; apply Z1; lia). f_equal. rewrite Z; auto. intros. apply Z2; lia.
Qed.
Lemma map_seq_nth {A B} (f : A -> B) (l : list A) d : map f l = map (fun i => f (nth i l d)) (seq 0 (length l)).
Proof. induction l as [|x l IH]; simpl; auto. f_equal. rewrite IH, <- seq_shift, map_map. reflexivity. Qed.
Lemma total_sum gtis cand : forall n a t, (a + n <= length gtis)%nat ->
  mfold (fun total i => obind (vec_get gtis i) (fun g => Ok (total + overlap g cand)%R)) (seq a n) t = Ok (t + Rsum (map (fun i => overlap (nth i gtis (0, 0)) cand) (seq a n))).
Proof.
  induction n as [|n IH]; intros a t L; cbn [seq mfold map]. { unfold Rsum. simpl. now rewrite Rplus_0_r. }
  rewrite (vec_get_ok gtis a (0, 0)) by lia. cbn [obind]. rewrite IH by lia. unfold Rsum. cbn [fold_right]. f_equal. ring.
Qed.

Lemma window_ok gtis cand : in_order gtis -> fst cand <= snd cand -> exists a b, gti_window gtis cand = Ok (a, b) /\ (a <= b)%nat /\ (b <= length gtis)%nat /\
  Rsum (map (fun i => overlap (nth i gtis (0, 0)) cand) (seq a (b - a))) = Rsum (map (fun g => overlap g cand) gtis).
Proof.
  intros O L. destruct (in_order_nth _ O) as (W & N). unfold gti_window.
  assert (N1 : nondecreasing (map fst gtis)).
  { intros i j Hij Hj. rewrite map_length in Hj. rewrite !map_fst_nth. pose proof (W i ltac:(lia)). pose proof (N i j Hij Hj). lra. }
  destruct (ub_ok _ (fst cand) N1) as (u & Eu & Lu & Lo & Hi). rewrite Eu. cbn [obind]. rewrite map_length in *.
  set (a := if (u =? 0)%nat then u else (u - 1)%nat).
  assert (Ha : (a <= length gtis)%nat) by (unfold a; destruct (Nat.eqb_spec u 0); lia).
  assert (N2 : nondecreasing (skipn a (map snd gtis))).
  { intros i j Hij Hj. rewrite skipn_length, map_length in Hj. rewrite !skipn_nth, !map_snd_nth. pose proof (N (a + i)%nat (a + j)%nat ltac:(lia) ltac:(lia)). pose proof (W (a + j)%nat ltac:(lia)). lra. }
  destruct (ub_ok _ (snd cand) N2) as (w & Ew & Lw & Lo2 & Hi2). rewrite Ew. cbn [obind]. rewrite skipn_length, map_length in *.
  set (b := if (a + w =? length gtis)%nat then (a + w)%nat else (a + w + 1)%nat).
  assert (Hb : (a <= b <= length gtis)%nat) by (unfold b; destruct (Nat.eqb_spec (a + w) (length gtis)); lia).
  exists a, b. split; [reflexivity|]. split; [lia|]. split; [lia|].
  rewrite (map_seq_nth (fun g => overlap g cand) gtis (0, 0)). symmetry. apply (sum_split (fun i => overlap (nth i gtis (0, 0)) cand)); try lia.
  - intros i Hi'. apply overlap_before. unfold a in Hi'. destruct (Nat.eqb_spec u 0); [lia|].
    pose proof (N i (u - 1)%nat ltac:(lia) ltac:(lia)). pose proof (Lo (u - 1)%nat ltac:(lia)) as HH. rewrite map_fst_nth in HH. lra.
  - intros i Hi' Hl. apply overlap_after. unfold b in Hi'. destruct (Nat.eqb_spec (a + w) (length gtis)); [lia|].
    pose proof (N (a + w)%nat i ltac:(lia) ltac:(lia)). pose proof (Hi2 w ltac:(lia) ltac:(lia)) as HH. rewrite skipn_nth, map_snd_nth in HH. lra.
Qed.

(** ** The time cuts *)
Lemma cut_down_ok cuts : forall s e, s < e -> match cut_down cuts (s, e) with
  | Some cand => s <= fst cand /\ fst cand < snd cand /\ snd cand <= e /\ forall t, s <= t < e -> (forallb (inside t) cuts = true <-> fst cand <= t < snd cand)
  | None => forall t, s <= t < e -> forallb (inside t) cuts = false
  end.
Proof.
  induction cuts as [|c cuts IH]; intros s e L; cbn [cut_down].
  - simpl. repeat split; try lra; tauto.
  - unfold overlaps. cbn [fst snd].
    pose proof (Rmax_l (fst c) s). pose proof (Rmax_r (fst c) s). pose proof (Rmin_l (snd c) e). pose proof (Rmin_r (snd c) e).
    set (lo := Rmax (fst c) s) in *. set (hi := Rmin (snd c) e) in *.
    assert (I : forall t, s <= t < e -> (inside t c = true <-> lo <= t < hi)).
    { intros t Ht. unfold lo, hi. destruct (inside_spec t c) as [I|I].
      - split; auto. intros _. unfold Rmax, Rmin. destruct (Rle_dec (fst c) s), (Rle_dec (snd c) e); lra.
      - split; [discriminate|]. intros K. exfalso. apply I. fold lo hi in K. lra. }
    destruct (Rltb_spec lo hi) as [H3|H3].
    + specialize (IH lo hi H3). destruct (cut_down cuts (lo, hi)) as [cand|].
      * destruct IH as (A & B & C & D). repeat split; try lra.
        -- cbn [forallb] in *. apply andb_prop in H5. destruct H5 as [P Q]. apply (I t H4) in P. apply (D t P) in Q. lra.
        -- cbn [forallb] in *. apply andb_prop in H5. destruct H5 as [P Q]. apply (I t H4) in P. apply (D t P) in Q. lra.
        -- intros K. cbn [forallb]. apply andb_true_intro. split; [apply I; lra|apply D; lra].
      * intros t Ht. cbn [forallb]. destruct (inside t c) eqn:E; auto. simpl. apply IH. now apply (I t Ht).
    + intros t Ht. cbn [forallb]. destruct (inside t c) eqn:E; auto. apply (I t Ht) in E. lra.
Qed.

Lemma duration_le p s e d : s <= e -> duration p s e d -> 0 <= d <= e - s.
Proof.
  intros L H. split.
  - apply (is_RInt_le (fun _ => 0) (indicator p) s e); auto.
    + now apply zero_RInt.
    + intros x _. unfold indicator. destruct (p x); lra.
  - apply (is_RInt_le (indicator p) (fun _ => 1) s e); auto.
    + replace (e - s) with (1 * (e - s)) by ring. now apply const_RInt.
    + intros x _. unfold indicator. destruct (p x); lra.
Qed.

(** ** acceptInterval *)
Definition wanted (cuts gtis : list interval) (t : R) : bool :=
  forallb (inside t) cuts && match gtis with [] => true | _ => existsb (inside t) gtis end.
Lemma accept_ok cuts gtis s e : s < e -> in_order gtis ->
  exists ok f, accept_interval s e cuts gtis = Ok (ok, f) /\ duration (wanted cuts gtis) s e (f * (e - s)) /\ 0 <= f <= 1 /\ (ok = false -> f = 0).
Proof.
  intros L O. unfold accept_interval. destruct (Rltb_spec e s); [lra|]. destruct (Reqb_spec s e); [lra|].
  pose proof (cut_down_ok cuts s e L) as C. destruct (cut_down cuts (s, e)) as [cand|].
  - destruct C as (A & B & C & D). destruct (window_ok gtis cand O ltac:(lra)) as (a & b & -> & Hab & Hb & S). cbn [obind fst snd].
    unfold gti_total. rewrite total_sum by lia. cbn [obind]. rewrite S, Rplus_0_l.
    set (total := Rsum (map (fun g => overlap g cand) gtis)).
    assert (I : exists v, duration (wanted cuts gtis) s e v /\ v <= snd cand - fst cand /\ v = (if Rltb (snd cand - fst cand) total || (length gtis =? 0)%nat then snd cand - fst cand else total)).
    { assert (Z : forall v, is_RInt (indicator (fun t => match gtis with [] => true | _ => existsb (inside t) gtis end)) (fst cand) (snd cand) v -> duration (wanted cuts gtis) s e v).
      { intros v Hv. unfold duration. apply part_RInt with (fst cand) (snd cand); try lra.
        - intros t Ht. unfold indicator, wanted. destruct (forallb (inside t) cuts) eqn:E; auto. apply D in E; lra.
        - intros t Ht. unfold indicator, wanted. destruct (forallb (inside t) cuts) eqn:E; auto. apply D in E; lra.
        - revert Hv. apply (is_RInt_ext (V := R_NormedModule)). intros t. rewrite Rmin_left, Rmax_right by lra. intros Ht. unfold indicator, wanted.
          assert (E : forallb (inside t) cuts = true) by (apply D; lra). rewrite E. reflexivity. }
      destruct gtis as [|g gtis].
      - exists (snd cand - fst cand). cbn [length Nat.eqb]. rewrite orb_true_r. split; [|split; [lra|reflexivity]]. apply Z.
        replace (snd cand - fst cand) with (1 * (snd cand - fst cand)) by ring. apply const_RInt; [lra|]. intros; reflexivity.
      - pose proof (duration_gtis (g :: gtis) (fst cand) (snd cand) O ltac:(lra)) as T.
        replace (map (fun g => overlap g (fst cand, snd cand)) (g :: gtis)) with (map (fun g => overlap g cand) (g :: gtis)) in T by (destruct cand; reflexivity).
        fold total in T. pose proof (duration_le _ (fst cand) (snd cand) total ltac:(lra) T). exists total. split; [|split; [lra|]].
        + apply Z. exact T.
        + cbn [length Nat.eqb]. rewrite orb_false_r. destruct (Rltb_spec (snd cand - fst cand) total); [lra|reflexivity]. }
    destruct I as (v & I1 & I2 & I3). rewrite <- I3. exists true, (v / (e - s)). split; [reflexivity|].
    replace (v / (e - s) * (e - s)) with v by (field; lra). split; auto. split; [|discriminate].
    pose proof (duration_le _ s e v ltac:(lra) I1) as (P & Q). split.
    + apply Rmult_le_pos; auto. left. apply Rinv_0_lt_compat. lra.
    + apply (Rmult_le_reg_r (e - s)); [lra|]. replace (v / (e - s) * (e - s)) with v by (field; lra). lra.
  - exists false, 0. split; [reflexivity|]. split; [|split; [lra|auto]]. rewrite Rmult_0_l. apply zero_RInt; [lra|]. intros t Ht. unfold indicator, wanted. rewrite C by lra. reflexivity.
Qed.

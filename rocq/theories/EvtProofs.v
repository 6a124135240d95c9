From Coq Require Import Reals Lra String Ascii Decimal DecimalString DecimalNat.
From Verif Require Import Base AccumModel AccumProofs SmapNpred EvtModel EvtSpec.
Local Open Scope nat_scope.

(** ** nobs *)
Definition nondecreasing (v : list R) : Prop := forall i j, i < j -> j < length v -> (nth i v 0 <= nth j v 0)%R.
Lemma ub_loop v x : nondecreasing v -> forall fuel first len, len <= fuel -> first + len <= length v ->
  (forall i, i < first -> (nth i v 0 <= x)%R) -> (forall i, first + len <= i -> i < length v -> (x < nth i v 0)%R) ->
  exists u, upper_bound_loop fuel v x first len = Ok u /\ u <= length v /\ (forall i, i < u -> (nth i v 0 <= x)%R) /\ (forall i, u <= i -> i < length v -> (x < nth i v 0)%R).
Proof.
  intros ND. induction fuel as [|fuel IH]; intros first len Hf Hl Lo Hi; cbn [upper_bound_loop].
  - exists first. replace len with 0 in * by lia. rewrite Nat.add_0_r in *. auto.
  - destruct (Nat.eqb_spec len 0) as [->|Hn]. { exists first. rewrite Nat.add_0_r in *. auto. }
    cbv zeta. pose proof (Nat.div2_decr len (len - 1) ltac:(lia)) as D. set (h := Nat.div2 len) in *.
    assert (Hh : first + h < length v) by lia. rewrite (vec_get_ok v (first + h) 0%R Hh). cbn [obind].
    destruct (Rltb_spec x (nth (first + h) v 0%R)) as [L|L].
    + apply IH; auto; try lia. intros i H1 H2. destruct (Nat.eq_dec i (first + h)) as [->|N]; auto. pose proof (ND (first + h) i ltac:(lia) H2). lra.
    + apply IH; auto; try lia. intros i H1. destruct (Nat.eq_dec i (first + h)) as [->|N]; [lra|]. pose proof (ND i (first + h) ltac:(lia) Hh). lra.
      intros i H1 H2. apply Hi; lia.
Qed.
Lemma ub_ok v x : nondecreasing v -> exists u, std_upper_bound v x = Ok u /\ u <= length v /\ (forall i, i < u -> (nth i v 0 <= x)%R) /\ (forall i, u <= i -> i < length v -> (x < nth i v 0)%R).
Proof. intros H. unfold std_upper_bound. apply ub_loop; auto; intros; lia. Qed.
Lemma inc_nondec v : increasing v -> nondecreasing v. Proof. intros H i j A B. left. now apply H. Qed.

Definition in_range (eb : list R) (x : R) : Prop := (nth 0 eb 0 <= x)%R /\ (x <= nth (length eb - 1) eb 0)%R.
Lemma bin_unique eb i j x : increasing eb -> in_bin eb i x -> in_bin eb j x -> i = j.
Proof.
  intros I (A & B & C) (A' & B' & C').
  assert (W : forall i j, i < j -> S i < length eb -> S j < length eb -> (nth j eb 0 <= x)%R -> ((x < nth (S i) eb 0)%R \/ (S (S i) = length eb /\ x = nth (S i) eb 0%R)) -> False).
  { intros a b Hab Ha Hb L [U|[U1 U2]]; [|lia]. destruct (Nat.eq_dec (S a) b) as [<-|N]; [lra|]. pose proof (I (S a) b ltac:(lia) ltac:(lia)). lra. }
  destruct (lt_eq_lt_dec i j) as [[H|H]|H]; auto; exfalso; eauto.
Qed.
Lemma bin_range eb i x : increasing eb -> in_bin eb i x -> in_range eb x.
Proof.
  intros I (A & B & C). split.
  - destruct i; [lra|]. pose proof (I 0 (S i) ltac:(lia) ltac:(lia)). lra.
  - assert ((nth (S i) eb 0 <= nth (length eb - 1) eb 0)%R). { destruct (Nat.eq_dec (S i) (length eb - 1)) as [->|N]; [lra|]. pose proof (I (S i) (length eb - 1) ltac:(lia) ltac:(lia)). lra. }
    destruct C as [C|[_ C]]; lra.
Qed.
Lemma event_ok eb src acc e : increasing eb -> 2 <= length eb -> length acc = length eb - 1 ->
  exists acc', nobs_event eb src acc e = Ok acc' /\ length acc' = length acc /\
    ((~ in_range eb (ne_energy e) /\ acc' = acc) \/ exists k, in_bin eb k (ne_energy e) /\ acc' = upd acc k (nth k acc 0 + share src e)%R).
Proof.
  intros I L2 La. unfold nobs_event, front, back. rewrite (vec_get_ok eb 0 0%R) by lia. cbn [obind].
  replace (match eb with [] => UB | _ :: _ => vec_get eb (length eb - 1) end) with (vec_get eb (length eb - 1)) by (destruct eb; simpl in L2; [lia|reflexivity]).
  rewrite (vec_get_ok eb (length eb - 1) 0%R) by lia. cbn [obind]. set (x := ne_energy e). set (f := nth 0 eb 0%R). set (b := nth (length eb - 1) eb 0%R).
  destruct (Rltb_spec x f) as [Hf|Hf]. { simpl. exists acc. split; auto. split; auto. left. split; auto. intros [H _]. unfold f in Hf. lra. }
  destruct (Rltb_spec b x) as [Hb|Hb]. { simpl. exists acc. split; auto. split; auto. left. split; auto. intros [_ H]. unfold b in Hb. lra. }
  cbn [orb]. destruct (ub_ok eb x (inc_nondec _ I)) as (u & Eu & Hu & Lo & Hi). rewrite Eu. cbn [obind].
  assert (Hfb : (f < b)%R) by (apply I; lia).
  assert (K : exists k, (if Reqb x b then minus1 (length acc) else if Reqb x f then Some 0 else minus1 u) = Some k /\ in_bin eb k x).
  { destruct (Reqb_spec x b) as [Eb|Nb].
    - exists (length acc - 1). split. { destruct (length acc); simpl; [lia|]. f_equal. lia. }
      replace (length acc - 1) with (length eb - 2) by lia. split; [lia|]. replace (S (length eb - 2)) with (length eb - 1) by lia. fold b. split; [|right; split; [lia|auto]].
      pose proof (I (length eb - 2) (length eb - 1) ltac:(lia) ltac:(lia)). fold b in H. lra.
    - destruct (Reqb_spec x f) as [Ef|Nf].
      + exists 0. split; auto. split; [lia|]. split; [fold f; lra|]. left. rewrite Ef. apply I; lia.
      + assert (0 < u). { destruct u; [|lia]. specialize (Hi 0 ltac:(lia) ltac:(lia)). fold f in Hi. lra. }
        assert (u < length eb). { destruct (Nat.eq_dec u (length eb)) as [->|]; [|lia]. specialize (Lo (length eb - 1) ltac:(lia)). fold b in Lo. lra. }
        exists (u - 1). split. { destruct u; [lia|]. simpl. now rewrite Nat.sub_0_r. }
        split; [lia|]. split; [apply Lo; lia|]. left. apply Hi; lia. }
  destruct K as (k & Ek & Bk). rewrite Ek. destruct Bk as (B1 & B2). assert (Hk : k < length acc) by lia.
  unfold vec_at. rewrite (nth_error_nth' acc 0%R Hk). cbn [obind]. eexists. split; [reflexivity|]. split; [apply upd_length|]. right. exists k. split; [split; auto|]. reflexivity.
Qed.
Lemma bin_dec eb i x : in_bin eb i x \/ ~ in_bin eb i x.
Proof.
  unfold in_bin. destruct (le_lt_dec (length eb) (S i)); [right; lia|]. destruct (Rle_dec (nth i eb 0%R) x); [|right; tauto].
  destruct (Rlt_dec x (nth (S i) eb 0%R)); [left; auto|]. destruct (Req_dec x (nth (S i) eb 0%R)); [|right; tauto]. destruct (Nat.eq_dec (S (S i)) (length eb)); [left; auto|right; tauto].
Qed.
Lemma range_dec eb x : in_range eb x \/ ~ in_range eb x.
Proof. unfold in_range. destruct (Rle_dec (nth 0 eb 0%R) x), (Rle_dec x (nth (length eb - 1) eb 0%R)); tauto. Qed.
Lemma nobs_fold eb src : increasing eb -> 2 <= length eb -> forall evs acc, length acc = length eb - 1 ->
  exists acc', mfold (nobs_event eb src) evs acc = Ok acc' /\ length acc' = length acc /\
    (forall i, S i < length eb -> exists sel, selection (fun e => in_bin eb i (ne_energy e)) evs sel /\ nth i acc' 0%R = (nth i acc 0 + Rsum (map (share src) sel))%R) /\
    exists sel, selection (fun e => in_range eb (ne_energy e)) evs sel /\ Rsum acc' = (Rsum acc + Rsum (map (share src) sel))%R.
Proof.
  intros I L2. induction evs as [|e evs IH]; intros acc La; cbn [mfold].
  - exists acc. split; auto. split; auto. split. intros i Hi. exists []. split; [constructor|]. unfold Rsum. simpl. lra. exists []. split; [constructor|]. unfold Rsum. simpl. lra.
  - destruct (event_ok eb src acc e I L2 La) as (a1 & E1 & L1 & C). rewrite E1. cbn [obind].
    destruct (IH a1 ltac:(lia)) as (a2 & E2 & La2 & B2 & T2). exists a2. split; auto. split; [lia|].
    destruct C as [[Nr ->]|(k & Bk & ->)].
    + split.
      * intros i Hi. destruct (B2 i Hi) as (sel & S1 & S2). exists sel. split; auto. apply sel_no; auto. intros H. apply Nr. eapply bin_range; eauto.
      * destruct T2 as (sel & S1 & S2). exists sel. split; auto. now apply sel_no.
    + assert (Hk : k < length acc) by (destruct Bk; lia). split.
      * intros i Hi. destruct (B2 i Hi) as (sel & S1 & S2). destruct (Nat.eq_dec i k) as [->|N].
        -- exists (e :: sel). split; [now constructor|]. rewrite S2, nth_upd_eq by auto. unfold Rsum. simpl. lra.
        -- exists sel. split. { apply sel_no; auto. intros H. apply N. eapply bin_unique; eauto. } rewrite S2, nth_upd_neq by auto. reflexivity.
      * destruct T2 as (sel & S1 & S2). exists (e :: sel). split; [constructor; auto; eapply bin_range; eauto|]. rewrite S2.
        assert (U : Rsum (upd acc k (nth k acc 0 + share src e)%R) = (Rsum acc + share src e)%R).
        { clear -Hk. revert k Hk. induction acc as [|a acc IHa]; intros [|k] Hk; simpl in Hk; try lia; unfold Rsum in *; simpl. lra. rewrite IHa by lia. lra. }
        rewrite U. unfold Rsum. simpl. lra.
Qed.

(** ** Decimal numbers *)
Lemma atoi_dec d : forall acc, atoi_digits (Z.of_nat acc) (NilEmpty.string_of_uint d) = Z.of_nat (Nat.of_uint_acc d acc).
Proof.
  induction d; intros acc; simpl NilEmpty.string_of_uint; cbn [atoi_digits Nat.of_uint_acc]; auto;
    match goal with |- context [digit ?c] => let v := eval vm_compute in (digit c) in change (digit c) with v end; cbv iota beta;
    rewrite Nat.tail_mul_spec; match goal with |- atoi_digits ?z _ = Z.of_nat (Nat.of_uint_acc _ ?k) => replace z with (Z.of_nat k) by lia end; apply IHd.
Qed.
Lemma atoi_decimal n : atoi_digits 0 (decimal n) = Z.of_nat n.
Proof. change 0%Z with (Z.of_nat 0). unfold decimal. rewrite atoi_dec. f_equal. apply (DecimalNat.Unsigned.of_to n). Qed.
Lemma decimal_inj a b : decimal a = decimal b -> a = b.
Proof. intros H. apply Nat2Z.inj. now rewrite <- !atoi_decimal, H. Qed.
Lemma to_uint_head n : exists d, decimal n = String (match Nat.to_uint n with D0 _ => "0" | D1 _ => "1" | D2 _ => "2" | D3 _ => "3" | D4 _ => "4" | D5 _ => "5" | D6 _ => "6" | D7 _ => "7" | D8 _ => "8" | _ => "9" end)%char d.
Proof.
  unfold decimal. assert (N : Nat.to_uint n <> Nil). { intros E. pose proof (DecimalNat.Unsigned.of_to n) as O. rewrite E in O. simpl in O. subst n. discriminate E. } destruct (Nat.to_uint n); try (eexists; reflexivity). now elim N.
Qed.
Lemma atoi_decimal_ok n : (Z.of_nat n < 2 ^ 31)%Z -> atoi (decimal n) = Ok (Z.of_nat n).
Proof.
  intros H. unfold atoi. assert (E : skip_spaces (decimal n) = decimal n /\ match decimal n with String "-"%char s' => (- atoi_digits 0 s')%Z | String "+"%char s' => atoi_digits 0 s' | s' => atoi_digits 0 s' end = atoi_digits 0 (decimal n)).
  { destruct (to_uint_head n) as (d & E). rewrite E. destruct (Nat.to_uint n); split; reflexivity. }
  destruct E as [E1 E2]. rewrite E1, E2, atoi_decimal. destruct (Z.leb_spec (- 2 ^ 31) (Z.of_nat n)); [|lia]. destruct (Z.ltb_spec (Z.of_nat n) (2 ^ 31)); [reflexivity|lia].
Qed.

(** ** Names *)
Lemma existsb_str c l : existsb (String.eqb c) l = true <-> In c l.
Proof. rewrite existsb_exists. split. intros (x & I & E). apply String.eqb_eq in E. now subst. intros I. exists c. split; auto. apply String.eqb_refl. Qed.
Lemma existsb_str_not c l : existsb (String.eqb c) l = false <-> ~ In c l.
Proof. rewrite <- existsb_str. destruct (existsb _ l); split; intros; congruence. Qed.
Lemma addColumn_root d c : dr_root (addColumn d c) = dr_root d. Proof. unfold addColumn. destruct (existsb _ _); reflexivity. Qed.
Lemma addColumn_cols l : forall d, dr_cols (fold_left addColumn l d) = (dr_cols d ++ firsts (dr_cols d) l)%list /\ dr_root (fold_left addColumn l d) = dr_root d.
Proof.
  induction l as [|c l IH]; intros d; simpl. { now rewrite app_nil_r. } destruct (IH (addColumn d c)) as [A B]. rewrite A, B, addColumn_root. split; auto.
  unfold addColumn. destruct (existsb (String.eqb c) (dr_cols d)) eqn:E; simpl; [reflexivity|]. now rewrite <- app_assoc.
Qed.
Lemma firsts_in l : forall seen c, In c (firsts seen l) <-> In c l /\ ~ In c seen.
Proof.
  induction l as [|x l IH]; intros seen c; simpl; [tauto|]. destruct (existsb (String.eqb x) seen) eqn:E.
  - apply existsb_str in E. rewrite IH. split; [tauto|]. intros [[->|A] B]; tauto.
  - apply existsb_str_not in E. simpl. rewrite IH, in_app_iff. simpl. split.
    + intros [->|[A B]]; tauto.
    + intros [A B]. destruct (string_dec x c); [tauto|]. right. split; [tauto|]. intros [C|[C|[]]]; tauto.
Qed.
Lemma firsts_nodup l : forall seen, NoDup (firsts seen l).
Proof.
  induction l as [|x l IH]; intros seen; simpl; [constructor|]. destruct (existsb (String.eqb x) seen); auto. constructor; auto. rewrite firsts_in, in_app_iff. simpl. tauto.
Qed.
Lemma index_of_some c l : forall i, index_of c l = Some i -> nth_error l i = Some c /\ forall j, j < i -> nth_error l j <> Some c.
Proof.
  induction l as [|x l IH]; intros i; simpl; [discriminate|]. destruct (String.eqb_spec c x) as [->|N].
  - intros [= <-]. split; auto. intros; lia.
  - destruct (index_of c l) as [k|]; simpl; [|discriminate]. intros [= <-]. destruct (IH k eq_refl) as [A B]. split; auto. intros [|j] Hj; simpl; [congruence|]. apply B. lia.
Qed.
Lemma index_of_none c l : index_of c l = None <-> ~ In c l.
Proof.
  induction l as [|x l IH]; simpl; [tauto|]. destruct (String.eqb_spec c x) as [->|N]. { split; [discriminate|tauto]. }
  destruct (index_of c l); simpl; split; try discriminate; try tauto; intros H. exfalso. apply H. right. apply Decidable.not_not; [|intros I; apply IH in I; discriminate]. unfold Decidable.decidable. destruct (in_dec string_dec c l); tauto.
  intros [A|A]; [congruence|]. now apply IH.
Qed.
Lemma index_of_nth c l i : NoDup l -> nth_error l i = Some c -> index_of c l = Some i.
Proof.
  intros ND H. destruct (index_of c l) as [k|] eqn:E.
  - apply index_of_some in E as [A _]. f_equal. rewrite NoDup_nth_error in ND. apply ND. now apply nth_error_Some; rewrite A. congruence.
  - apply index_of_none in E. apply nth_error_In in H. contradiction.
Qed.
Lemma substring_all s n : String.length s <= n -> substring 0 n s = s.
Proof. revert n. induction s as [|c s IH]; intros [|n] H; simpl in *; try lia; auto. f_equal. apply IH. lia. Qed.
Lemma substring_app_l a b : substring 0 (String.length a) (a ++ b)%string = a.
Proof. induction a as [|c a IH]; simpl. now destruct b. now rewrite IH. Qed.
Lemma substring_app_r a b n : String.length b <= n -> substring (String.length a) n (a ++ b)%string = b.
Proof. intros H. induction a as [|c a IH]; simpl; auto. now apply substring_all. Qed.
Lemma length_append a b : String.length (a ++ b)%string = String.length a + String.length b.
Proof. induction a; simpl; auto. Qed.
Lemma append_inj a b c : (a ++ b)%string = (a ++ c)%string -> b = c.
Proof. induction a; simpl; auto. intros [= H]. auto. Qed.
Lemma key_at_ok d i : (Z.of_nat i < 2 ^ 31)%Z -> dr_key_at d (dr_root d ++ decimal i)%string = vec_at (dr_cols d) i.
Proof.
  intros H. unfold dr_key_at, substr. rewrite substring_app_l, String.eqb_refl. cbn [negb].
  rewrite substring_app_r by (rewrite length_append; lia). rewrite atoi_decimal_ok by auto. cbn [obind]. destruct (Z.ltb_spec (Z.of_nat i) 0); [lia|]. now rewrite Nat2Z.id.
Qed.

From Verif Require Import Base SparseModel SparseSpec.
From Coq Require Import Sorted.

Section Lemmas.
Context {T : Type}.
Implicit Types (l : list (nat * T)) (v : sv T).

Fixpoint assoc (k : nat) l : option T :=
  match l with
  | [] => None
  | (j, x) :: l' => if j =? k then Some x else assoc k l'
  end.

(** Keys strictly increasing. *)
Definition keys_sorted l : Prop := StronglySorted lt (map fst l).
(** Well-formed sparse vector. *)
Definition sv_wf v : Prop :=
  keys_sorted (sv_data v) /\ Forall (fun p => fst p < sv_size v) (sv_data v).

Lemma assoc_None k l : Forall (fun p => fst p <> k) l -> assoc k l = None.
Proof.
  induction 1 as [|[j x] l H _ IH]; simpl in *; auto.
  destruct (Nat.eqb_spec j k); [lia|auto].
Qed.

Lemma assoc_app k l1 l2 :
  assoc k (l1 ++ l2) = match assoc k l1 with Some x => Some x | None => assoc k l2 end.
Proof.
  induction l1 as [|[j x] l1 IH]; simpl; auto. destruct (j =? k); auto.
Qed.

Lemma sorted_cons j x l :
  keys_sorted ((j, x) :: l) <-> keys_sorted l /\ Forall (fun p => j < fst p) l.
Proof.
  unfold keys_sorted; simpl; split.
  - intros H; inversion H as [|a b Ha Hb]; subst. split; auto.
    rewrite Forall_map in Hb. auto.
  - intros [H1 H2]. constructor; auto. rewrite Forall_map; auto.
Qed.

Lemma sorted_part k l : keys_sorted l -> partitioned_lt k l = true.
Proof.
  induction l as [|[j x] l IH]; simpl; auto.
  rewrite sorted_cons. intros [H1 H2].
  destruct (Nat.ltb_spec j k); auto.
  apply forallb_forall. intros p Hp. rewrite Forall_forall in H2. specialize (H2 p Hp).
  destruct (Nat.ltb_spec (fst p) k); simpl; auto; lia.
Qed.

Lemma lower_bound_ok v k : keys_sorted (sv_data v) -> lower_bound v k = Ok (lb_pos k (sv_data v)).
Proof. intros H. unfold lower_bound. now rewrite sorted_part. Qed.

Lemma lb_pos_nth k l : keys_sorted l ->
  match nth_error l (lb_pos k l) with
  | None => assoc k l = None
  | Some (j, x) => if j =? k then assoc k l = Some x else assoc k l = None
  end.
Proof.
  induction l as [|[j x] l IH]; simpl; auto.
  rewrite sorted_cons. intros [H1 H2].
  destruct (Nat.ltb_spec j k) as [Hj|Hj]; simpl.
  - destruct (Nat.eqb_spec j k); [lia|]. exact (IH H1).
  - destruct (Nat.eqb_spec j k); auto.
    apply assoc_None. eapply Forall_impl; [|exact H2]. simpl; intros; lia.
Qed.

Lemma sv_get_assoc v k : keys_sorted (sv_data v) ->
  sv_get v k = Ok (match assoc k (sv_data v) with Some x => x | None => sv_null v end).
Proof.
  intros H. unfold sv_get, sv_find. rewrite lower_bound_ok by auto. simpl.
  pose proof (lb_pos_nth k _ H) as L.
  destruct (nth_error (sv_data v) (lb_pos k (sv_data v))) as [[j x]|] eqn:E; simpl.
  - destruct (j =? k); simpl; rewrite ?L; auto. rewrite E. auto.
  - now rewrite L.
Qed.

Lemma keys_sorted_app l1 l2 m :
  keys_sorted l1 -> keys_sorted l2 ->
  Forall (fun p => fst p < m) l1 -> Forall (fun p => m <= fst p) l2 -> keys_sorted (l1 ++ l2).
Proof.
  induction l1 as [|[j x] l1 IH]; simpl; auto.
  rewrite !sorted_cons. intros [H1 H2] H3 H4 H5. inversion H4; subst; simpl in *. split.
  - apply IH; auto.
  - apply Forall_app; split; auto. eapply Forall_impl; [|exact H5]. simpl; intros; lia.
Qed.

Lemma firstn_lb k l : keys_sorted l ->
  keys_sorted (firstn (lb_pos k l) l) /\
  Forall (fun p => fst p < k) (firstn (lb_pos k l) l) /\
  (forall j, assoc j (firstn (lb_pos k l) l) = if j <? k then assoc j l else None).
Proof.
  induction l as [|[j x] l IH]; simpl.
  - intros _. split; [constructor|]. split; [constructor|]. intros; destruct (_ <? _); auto.
  - rewrite sorted_cons. intros [H1 H2]. destruct (IH H1) as (A & B & C).
    destruct (Nat.ltb_spec j k) as [Hj|Hj]; simpl.
    + rewrite sorted_cons. split; [split; auto|split].
      * apply Forall_forall. intros p Hp. rewrite Forall_forall in H2. apply H2.
        rewrite <- (firstn_skipn (lb_pos k l) l). apply in_or_app; auto.
      * constructor; auto.
      * intros i. destruct (Nat.eqb_spec j i).
        -- subst. destruct (Nat.ltb_spec i k); auto; lia.
        -- apply C.
    + split; [constructor|split; [constructor|]].
      intros i. destruct (Nat.ltb_spec i k); auto.
      destruct (Nat.eqb_spec j i); [lia|].
      symmetry; apply assoc_None. eapply Forall_impl; [|exact H2]. simpl; intros; lia.
Qed.

Lemma skipn_lb k l : keys_sorted l ->
  keys_sorted (skipn (lb_pos k l) l) /\
  Forall (fun p => k <= fst p) (skipn (lb_pos k l) l).
Proof.
  induction l as [|[j x] l IH]; simpl.
  - intros _. split; constructor.
  - rewrite sorted_cons. intros [H1 H2]. destruct (IH H1) as (A & B).
    destruct (Nat.ltb_spec j k) as [Hj|Hj]; simpl; auto.
    split; [rewrite sorted_cons; auto|]. constructor; auto.
    eapply Forall_impl; [|exact H2]. simpl; intros; lia.
Qed.


Lemma filter_none {A} (f : A -> bool) (l : list A) : Forall (fun x => f x = false) l -> filter f l = [].
Proof. induction 1 as [|a l H _ IH]; simpl; auto. now rewrite H. Qed.

Lemma filter_all {A} (f : A -> bool) (l : list A) : Forall (fun x => f x = true) l -> filter f l = l.
Proof. induction 1 as [|a l H _ IH]; simpl; auto. rewrite H. now rewrite IH. Qed.

Lemma lb_split k l : keys_sorted l ->
  firstn (lb_pos k l) l = filter (fun p => fst p <? k) l /\
  skipn (lb_pos k l) l = filter (fun p => negb (fst p <? k)) l.
Proof.
  induction l as [|[j x] l IH]; simpl; auto.
  rewrite sorted_cons. intros [H1 H2]. destruct (IH H1) as [A B].
  destruct (Nat.ltb_spec j k) as [Hj|Hj]; simpl.
  - now rewrite A, B.
  - rewrite filter_none, filter_all; auto.
    + eapply Forall_impl; [|exact H2]. simpl; intros a Ha. destruct (Nat.ltb_spec (fst a) k); auto; lia.
    + eapply Forall_impl; [|exact H2]. simpl; intros a Ha. destruct (Nat.ltb_spec (fst a) k); auto; lia.
Qed.

Lemma lb_pos_mono a b l : a <= b -> keys_sorted l -> lb_pos a l <= lb_pos b l.
Proof.
  intros Hab. induction l as [|[j x] l IH]; simpl; auto.
  rewrite sorted_cons. intros [H1 H2].
  destruct (Nat.ltb_spec j a); destruct (Nat.ltb_spec j b); try lia.
  specialize (IH H1); lia.
Qed.

Lemma firstn_filter_length {A} (p q : nat) (l : list A) :
  p <= q -> firstn (q - p) (skipn p l) = skipn p (firstn q l).
Proof.
  intros H. rewrite skipn_firstn_comm. reflexivity.
Qed.

Lemma range_data_ok v first last :
  keys_sorted (sv_data v) -> first <= last ->
  range_data v first last =
    Ok (filter (fun p => (first <=? fst p) && (fst p <=? last)) (sv_data v)).
Proof.
  intros Hs Hle. unfold range_data, upper_bound. rewrite !lower_bound_ok by auto. simpl.
  set (l := sv_data v) in *.
  rewrite firstn_filter_length by (apply lb_pos_mono; [lia|auto]).
  f_equal.
  destruct (lb_split (S last) l Hs) as [A _].
  rewrite A.
  assert (Hs' : keys_sorted (filter (fun p => fst p <? S last) l)).
  { rewrite <- A. apply firstn_lb; auto. }
  assert (Hp : lb_pos first l = lb_pos first (filter (fun p => fst p <? S last) l)).
  { clear - Hs Hle. induction l as [|[j x] l IH]; simpl; auto.
    rewrite sorted_cons in Hs. destruct Hs as [H1 H2].
    destruct (Nat.ltb_spec j first) as [Hj|Hj].
    - destruct (Nat.ltb_spec j (S last)); [|lia]. simpl.
      destruct (Nat.ltb_spec j first); [|lia]. f_equal; auto.
    - destruct (Nat.ltb_spec j (S last)); simpl.
      + destruct (Nat.ltb_spec j first); [lia|auto].
      + rewrite filter_none; auto.
        eapply Forall_impl; [|exact H2]. simpl; intros a Ha. destruct (Nat.ltb_spec (fst a) (S last)); auto; lia. }
  rewrite Hp. destruct (lb_split first _ Hs') as [_ B]. rewrite B.
  clear. induction l as [|[j x] l IH]; simpl; auto.
  destruct (Nat.ltb_spec j (S last)); simpl.
  - destruct (Nat.ltb_spec j first); simpl; destruct (Nat.leb_spec first j); simpl; try lia;
      destruct (Nat.leb_spec j last); simpl; try lia; rewrite ?IH; auto.
  - destruct (Nat.leb_spec j last); try lia. rewrite andb_false_r. auto.
Qed.

(** ** Dense abstraction *)
Variable eqb : T -> T -> bool.
Hypothesis eqb_eq : forall a b, eqb a b = true -> a = b.

Definition lookup v (k : nat) : T :=
  match assoc k (sv_data v) with Some x => x | None => sv_null v end.

Definition repr v (d : dense T) : Prop :=
  sv_wf v /\ sv_size v = length (d_elems d) /\ sv_null v = d_null d /\
  forall k, lookup v k = d_get d k.

Lemma nonnull_spec v (l : list T) i :
  keys_sorted (nonnull_from eqb v i l) /\
  Forall (fun p => i <= fst p < i + length l) (nonnull_from eqb v i l) /\
  forall k, match assoc k (nonnull_from eqb v i l) with Some x => x | None => sv_null v end =
            if k <? i then sv_null v else nth (k - i) l (sv_null v).
Proof.
  revert i; induction l as [|x l IH]; intros i; simpl.
  - split; [constructor|split; [constructor|]]. intros k. destruct (k <? i); auto.
    destruct (k - i); auto.
  - destruct (IH (S i)) as (A & B & C).
    assert (B' : Forall (fun p : nat * T => i <= fst p < i + S (length l)) (nonnull_from eqb v (S i) l)).
    { eapply Forall_impl; [|exact B]. simpl; intros; lia. }
    destruct (test_value eqb v x) eqn:E.
    + split; [|split].
      * rewrite sorted_cons; split; auto. eapply Forall_impl; [|exact B]. simpl; intros; lia.
      * constructor; auto. simpl; lia.
      * intros k. simpl. destruct (Nat.eqb_spec i k).
        -- subst. destruct (Nat.ltb_spec k k); [lia|]. rewrite Nat.sub_diag. auto.
        -- rewrite C. destruct (Nat.ltb_spec k (S i)); destruct (Nat.ltb_spec k i); try lia; auto.
           replace (k - i) with (S (k - S i)) by lia. auto.
    + split; [|split]; auto.
      intros k. rewrite C. unfold test_value in E. apply negb_false_iff in E. apply eqb_eq in E.
      destruct (Nat.ltb_spec k (S i)); destruct (Nat.ltb_spec k i); try lia; auto.
      * replace (k - i) with 0 by lia. auto.
      * replace (k - i) with (S (k - S i)) by lia. auto.
Qed.

Lemma nth_repeat' (a d : T) n k : nth k (repeat a n) d = if k <? n then a else d.
Proof.
  revert k; induction n as [|n IH]; intros [|k]; simpl; auto. rewrite IH. reflexivity.
Qed.

Lemma d_get_repeat (null : T) n k : d_get (mk_dense null (repeat null n)) k = null.
Proof. unfold d_get; simpl. rewrite nth_repeat'. destruct (_ <? _); auto. Qed.

Lemma repr_new n (null : T) : repr (sv_new n null) (mk_dense null (repeat null n)).
Proof.
  split; [|split; [|split]]; simpl; auto.
  - split; constructor.
  - now rewrite repeat_length.
  - intros k. now rewrite d_get_repeat.
Qed.

Lemma repr_push v d x : repr v d ->
  repr (push_back eqb v x) (mk_dense (d_null d) (d_elems d ++ [x])).
Proof.
  intros ((Hs & Hb) & Hn & Hnull & Hg). unfold push_back.
  assert (Hb' : Forall (fun p : nat * T => fst p < S (sv_size v)) (sv_data v)).
  { eapply Forall_impl; [|exact Hb]. simpl; intros; lia. }
  split; [|split; [|split]]; simpl; auto.
  - split; simpl.
    + destruct (test_value eqb v x); auto.
      apply keys_sorted_app with (m := sv_size v); auto. constructor; constructor.
    + destruct (test_value eqb v x); auto. apply Forall_app; split; auto.
  - rewrite app_length; simpl; lia.
  - intros k. specialize (Hg k). unfold lookup, d_get in *; simpl.
    destruct (Nat.lt_total k (sv_size v)) as [H|[H|H]].
    + rewrite app_nth1 by lia. destruct (test_value eqb v x); auto.
      rewrite assoc_app. destruct (assoc k (sv_data v)); auto. simpl.
      destruct (Nat.eqb_spec (sv_size v) k); [lia|]. auto.
    + assert (Ha : assoc k (sv_data v) = None).
      { apply assoc_None. eapply Forall_impl; [|exact Hb]. simpl; intros; lia. }
      rewrite app_nth2 by lia. replace (k - length (d_elems d)) with 0 by lia. simpl.
      destruct (test_value eqb v x) eqn:E.
      * rewrite assoc_app, Ha. simpl. now rewrite H, Nat.eqb_refl.
      * rewrite Ha. unfold test_value in E. apply negb_false_iff in E. symmetry; auto.
    + assert (Ha : assoc k (sv_data v) = None).
      { apply assoc_None. eapply Forall_impl; [|exact Hb]. simpl; intros; lia. }
      rewrite (nth_overflow (d_elems d ++ [x])) by (rewrite app_length; simpl; lia).
      destruct (test_value eqb v x).
      * rewrite assoc_app, Ha. simpl. destruct (Nat.eqb_spec (sv_size v) k); [lia|auto].
      * now rewrite Ha.
Qed.

Lemma repr_fill v d (l : list T) : repr v d -> length l = sv_size v ->
  repr (mk_sv (sv_size v) (sv_null v) (nonnull_from eqb v 0 l)) (mk_dense (d_null d) l).
Proof.
  intros (_ & Hn & Hnull & Hg) Hl. destruct (nonnull_spec v l 0) as (A & B & C).
  split; [|split; [|split]]; simpl; auto.
  - split; simpl; auto. eapply Forall_impl; [|exact B]. simpl; intros; lia.
  - intros k. unfold lookup, d_get. simpl. rewrite C. rewrite Nat.sub_0_r. rewrite Hnull. reflexivity.
Qed.

Lemma repr_resize_grow v d n : repr v d -> sv_size v <= n ->
  repr (mk_sv n (sv_null v) (sv_data v)) (mk_dense (d_null d) (vec_resize (d_elems d) n (d_null d))).
Proof.
  intros ((Hs & Hb) & Hn & Hnull & Hg) Hl.
  split; [|split; [|split]]; simpl; auto.
  - split; simpl; auto. eapply Forall_impl; [|exact Hb]. simpl; intros; lia.
  - now rewrite vec_resize_length.
  - intros k. specialize (Hg k). unfold lookup, d_get in *; simpl. rewrite Hg.
    unfold vec_resize. rewrite firstn_all2 by lia.
    destruct (Nat.lt_ge_cases k (length (d_elems d))).
    + now rewrite app_nth1.
    + rewrite nth_overflow, app_nth2 by lia. rewrite nth_repeat'. destruct (_ <? _); auto.
Qed.

Lemma repr_clear v d : repr v d -> repr (sv_clear v) (mk_dense (d_null d) []).
Proof.
  intros (_ & Hn & Hnull & Hg). split; [|split; [|split]]; simpl; auto.
  - split; constructor.
  - intros [|k]; simpl; auto.
Qed.

Lemma repr_clear_data v d : repr v d ->
  repr (sv_clear_data v) (mk_dense (d_null d) (repeat (d_null d) (length (d_elems d)))).
Proof.
  intros (_ & Hn & Hnull & Hg). split; [|split; [|split]]; simpl; auto.
  - split; constructor.
  - now rewrite repeat_length.
  - intros k. rewrite d_get_repeat. auto.
Qed.

Definition erepr (e : nat -> sv T) (f : nat -> dense T) : Prop := forall i, repr (e i) (f i).

Lemma erepr_set e f i v d : erepr e f -> repr v d -> erepr (env_set e i v) (env_set f i d).
Proof. intros H1 H2 j. unfold env_set. destruct (j =? i); auto. Qed.

Lemma step_refines e f o : erepr e f ->
  match o with OResize i n => length (d_elems (f i)) <= n | _ => True end ->
  match sv_step eqb e o with
  | Ok e' => erepr e' (d_step f o)
  | Throw => erepr e (d_step f o) /\ exists i (l : list T), o = OFill i l /\ length (d_elems (f i)) <> length l
  | UB => False
  end.
Proof.
  intros He Ho. destruct o as [i n null|i l null|i j|i x|i n|i|i|i l|i j]; simpl.
  - apply erepr_set; auto. apply repr_new.
  - unfold sv_of_vect, fill_from_vect. simpl. rewrite Nat.eqb_refl. simpl.
    apply erepr_set; auto.
    exact (repr_fill (sv_new (length l) null) (mk_dense null (repeat null (length l))) l (repr_new _ _) eq_refl).
  - apply erepr_set; auto.
  - apply erepr_set; auto. apply repr_push; auto.
  - pose proof (He i) as Hi. destruct Hi as (Hw & Hn & _). unfold sv_resize.
    rewrite Hn. apply Nat.leb_le in Ho as Ho'. rewrite Ho'. simpl. apply erepr_set; auto.
    apply repr_resize_grow; auto. lia.
  - apply erepr_set; auto. apply repr_clear; auto.
  - apply erepr_set; auto. apply repr_clear_data; auto.
  - pose proof (He i) as Hi. destruct Hi as (Hw & Hn & _). unfold fill_from_vect. rewrite <- Hn.
    destruct (Nat.eqb_spec (sv_size (e i)) (length l)) as [E|E]; simpl.
    + apply erepr_set; auto. apply repr_fill; auto.
    + split; auto. exists i, l. split; auto. lia.
  - apply erepr_set; auto. apply erepr_set; auto.
Qed.

Lemma run_refines os : forall e f, erepr e f -> never_shrinks f os ->
  exists e', sv_run eqb e os = Ok e' /\ erepr e' (d_run f os).
Proof.
  induction os as [|o os IH]; intros e f He Hs; simpl.
  - exists e; auto.
  - destruct Hs as [Ho Hs]. pose proof (step_refines e f o He Ho) as S.
    destruct (sv_step eqb e o) as [e'| |] eqn:E; [| |contradiction].
    + apply IH; auto.
    + apply IH; auto. tauto.
Qed.

Lemma repr_reads v d : repr v d ->
  (forall k, sv_get v k = Ok (d_get d k)) /\ sv_size v = length (d_elems d).
Proof.
  intros ((Hs & Hb) & Hn & Hnull & Hg). split; auto.
  intros k. rewrite sv_get_assoc by auto. f_equal. apply Hg.
Qed.

Lemma history_refines os : forall null, never_shrinks (fun _ => mk_dense null []) os ->
  exists e', sv_run eqb (fun _ => sv_new 0 null) os = Ok e' /\
    forall i, (forall k, sv_get (e' i) k = Ok (d_get (d_run (fun _ => mk_dense null []) os i) k)) /\
              sv_size (e' i) = length (d_elems (d_run (fun _ => mk_dense null []) os i)) /\
              StronglySorted lt (map fst (sv_data (e' i))) /\
              Forall (fun p => fst p < sv_size (e' i)) (sv_data (e' i)).
Proof.
  intros null Hs.
  destruct (run_refines os (fun _ => sv_new 0 null) (fun _ => mk_dense null [])) as (e' & E & R); auto.
  { intros i. apply (repr_new 0 null). }
  exists e'. split; auto. intros i. destruct (repr_reads _ _ (R i)) as [A B].
  destruct (R i) as ((C & D) & _). auto.
Qed.

(** resize, both directions, on a well-formed vector *)
Lemma resize_reads v n : sv_wf v ->
  exists v', sv_resize v n = Ok v' /\
    (forall k, sv_get v' k = if k <? n then sv_get v k else Ok (sv_null v)) /\
    sv_size v' = Nat.max n (sv_size v) /\ sv_wf v'.
Proof.
  intros (Hs & Hb). unfold sv_resize. destruct (Nat.leb_spec (sv_size v) n) as [H|H].
  - eexists; split; [reflexivity|]. simpl. split; [|split; [lia|]].
    + intros k. rewrite !sv_get_assoc by auto. simpl. destruct (Nat.ltb_spec k n); auto.
      rewrite assoc_None; auto. eapply Forall_impl; [|exact Hb]. simpl; intros; lia.
    + split; simpl; auto. eapply Forall_impl; [|exact Hb]. simpl; intros; lia.
  - rewrite lower_bound_ok by auto. simpl. eexists; split; [reflexivity|]. simpl.
    destruct (firstn_lb n _ Hs) as (A & B & C). split; [|split; [lia|]].
    + intros k. rewrite !sv_get_assoc by auto. simpl. rewrite C. destruct (k <? n); auto.
    + split; simpl; auto. eapply Forall_impl; [|exact B]. simpl; intros; lia.
Qed.

End Lemmas.

Section Export.
Context {T : Type}.
Implicit Types (l : list (nat * T)) (v : sv T).

Lemma combine_map_fst_snd l : combine (map fst l) (map snd l) = l.
Proof. induction l as [|[k x] l IH]; simpl; f_equal; auto. Qed.

Lemma mfold_set_spec (off : nat) l : forall (d : list T),
  keys_sorted l -> Forall (fun p => off <= fst p /\ fst p - off < length d) l ->
  exists d', mfold (fun d (p : nat * T) => vec_set d (fst p - off) (snd p)) l d = Ok d' /\
    length d' = length d /\
    forall i dft, i < length d -> nth i d' dft = match assoc (off + i) l with Some x => x | None => nth i d dft end.
Proof.
  induction l as [|[k x] l IH]; intros d Hs Hb; simpl.
  - exists d. auto.
  - rewrite sorted_cons in Hs. destruct Hs as [H1 H2]. inversion Hb as [|a b Ha Hb']; subst. simpl in Ha.
    rewrite vec_set_ok by lia. simpl.
    destruct (IH (upd d (k - off) x)) as (d' & E & L & R); auto.
    { eapply Forall_impl; [|exact Hb']. intros a; rewrite upd_length; auto. }
    exists d'. split; auto. split; [now rewrite L, upd_length|].
    intros i dft Hi. rewrite R by (rewrite upd_length; auto).
    destruct (Nat.eqb_spec k (off + i)) as [Ek|Ek].
    + subst k. rewrite (assoc_None (off+i) l).
      * replace (off + i - off) with i by lia. now rewrite nth_upd_eq.
      * eapply Forall_impl; [|exact H2]. simpl; intros; lia.
    + destruct (assoc (off + i) l); auto. rewrite nth_upd_neq by lia. auto.
Qed.

Lemma vec_resize_nil (n : nat) (z : T) : vec_resize [] n z = repeat z n.
Proof. unfold vec_resize. rewrite firstn_nil. simpl. now rewrite Nat.sub_0_r. Qed.

Lemma fill_vect_spec (zero : T) v dst : sv_wf v ->
  exists d', fill_vect zero v dst = Ok d' /\ length d' = sv_size v /\
    forall i dft, i < sv_size v ->
      nth i d' dft = match assoc i (sv_data v) with Some x => x
                     | None => nth i (vec_resize dst (sv_size v) zero) dft end.
Proof.
  intros (Hs & Hb). unfold fill_vect.
  destruct (mfold_set_spec 0 (sv_data v) (vec_resize dst (sv_size v) zero)) as (d' & E & L & R); auto.
  { rewrite vec_resize_length. eapply Forall_impl; [|exact Hb]. simpl; intros; lia. }
  rewrite vec_resize_length in *. exists d'. split; [|split; auto].
  rewrite <- E. clear. generalize (vec_resize dst (sv_size v) zero).
  induction (sv_data v) as [|p l IH]; intros d; simpl; auto.
  rewrite Nat.sub_0_r. destruct (vec_set d (fst p) (snd p)); simpl; auto.
Qed.

Lemma filter_sorted (f : nat * T -> bool) l : keys_sorted l -> keys_sorted (filter f l).
Proof.
  induction l as [|[k x] l IH]; simpl; auto. rewrite sorted_cons. intros [H1 H2].
  destruct (f (k, x)); auto. rewrite sorted_cons. split; auto.
  apply Forall_forall. intros p Hp. rewrite Forall_forall in H2. apply H2. apply filter_In in Hp; tauto.
Qed.

Lemma assoc_filter (f : nat * T -> bool) (g : nat -> bool) l k :
  (forall p, f p = g (fst p)) -> assoc k (filter f l) = if g k then assoc k l else None.
Proof.
  intros H. induction l as [|[j x] l IH]; simpl.
  - destruct (g k); auto.
  - rewrite H. simpl. destruct (g j) eqn:E; simpl.
    + destruct (Nat.eqb_spec j k); auto. subst. now rewrite E.
    + destruct (Nat.eqb_spec j k); auto. subst. rewrite E in *. auto.
Qed.

(** The ranged dense export is correct when the key [last] is not stored. *)
Lemma fill_vect_range_spec (zero : T) v dst first last :
  sv_wf v -> first <= last -> assoc last (sv_data v) = None ->
  exists d', fill_vect_range zero v dst first last = Ok d' /\ length d' = last - first /\
    forall i dft, i < last - first ->
      nth i d' dft = match assoc (first + i) (sv_data v) with Some x => x
                     | None => nth i (vec_resize dst (last - first) zero) dft end.
Proof.
  intros (Hs & Hb) Hle Hn. unfold fill_vect_range. rewrite range_data_ok by auto. simpl.
  set (f := fun p : nat * T => (first <=? fst p) && (fst p <=? last)).
  destruct (mfold_set_spec first (filter f (sv_data v)) (vec_resize dst (last - first) zero)) as (d' & E & L & R).
  - now apply filter_sorted.
  - rewrite vec_resize_length. apply Forall_forall. intros p Hp. apply filter_In in Hp as [Hi Hf].
    unfold f in Hf. apply andb_true_iff in Hf as [A B]. apply Nat.leb_le in A, B.
    destruct (Nat.eq_dec (fst p) last) as [e|e]; [|lia].
    exfalso. clear - Hn Hi e Hs. induction (sv_data v) as [|[j x] l IH]; simpl in *; auto.
    rewrite sorted_cons in Hs. destruct Hs as [H1 H2].
    destruct Hi as [Hi|Hi]; [subst; simpl in *; rewrite Nat.eqb_refl in Hn; discriminate|].
    destruct (Nat.eqb_spec j last); [discriminate|]. auto.
  - rewrite vec_resize_length in *. exists d'. split; auto. split; auto.
    intros i dft Hi. rewrite R by auto.
    rewrite (assoc_filter f (fun k => (first <=? k) && (k <=? last))) by reflexivity.
    destruct (Nat.leb_spec first (first + i)); [|lia].
    destruct (Nat.leb_spec (first + i) last); [|lia]. auto.
Qed.

Lemma assoc_In k x l : assoc k l = Some x -> In (k, x) l.
Proof.
  induction l as [|[j y] l IH]; simpl; [discriminate|].
  destruct (Nat.eqb_spec j k); intros H; [inversion H; subst; auto|auto].
Qed.

Lemma mfold_set_oob (off : nat) l (k : nat) (x : T) : forall (d : list T),
  In (k, x) l -> length d <= k - off ->
  mfold (fun d (p : nat * T) => vec_set d (fst p - off) (snd p)) l d = UB.
Proof.
  induction l as [|[j y] l IH]; intros d Hin Hl; simpl in *; [contradiction|].
  unfold vec_set at 1. destruct (Nat.ltb_spec (j - off) (length d)) as [H|H]; simpl; auto.
  destruct Hin as [E|Hin]; [inversion E; subst; lia|].
  apply IH; auto. now rewrite upd_length.
Qed.

(** ... and writes out of bounds whenever it is. *)
Lemma fill_vect_range_ub (zero : T) v dst first last x :
  sv_wf v -> first <= last -> assoc last (sv_data v) = Some x ->
  fill_vect_range zero v dst first last = UB.
Proof.
  intros (Hs & Hb) Hle Hn. unfold fill_vect_range. rewrite range_data_ok by auto. simpl.
  apply mfold_set_oob with (k := last) (x := x).
  - apply filter_In. split; [now apply assoc_In|]. simpl.
    apply andb_true_iff; split; apply Nat.leb_le; lia.
  - now rewrite vec_resize_length.
Qed.

Lemma fill_vect_range_exact (zero : T) v dst first last :
  sv_wf v -> first <= last ->
  match fill_vect_range zero v dst first last with
  | Ok _ => assoc last (sv_data v) = None
  | Throw => False
  | UB => assoc last (sv_data v) <> None
  end.
Proof.
  intros Hw Hle. destruct (assoc last (sv_data v)) as [x|] eqn:E.
  - rewrite (fill_vect_range_ub zero v dst first last x); auto. discriminate.
  - destruct (fill_vect_range_spec zero v dst first last) as (d' & F & _); auto. now rewrite F.
Qed.

Lemma write_kv_spec (r : list (nat * T)) : forall n ks xs,
  length ks = n + length r -> length xs = n + length r ->
  write_kv 0 n r ks xs = Ok (firstn n ks ++ map fst r, firstn n xs ++ map snd r).
Proof.
  induction r as [|[k x] r IH]; intros n ks xs Hk Hx; simpl in *.
  - rewrite !app_nil_r. rewrite !firstn_all2 by lia. auto.
  - rewrite Nat.sub_0_r. rewrite !vec_set_ok by lia. simpl.
    rewrite IH by (rewrite upd_length; lia).
    assert (G : forall A (l : list A) a, n < length l -> firstn (S n) (upd l n a) = firstn n l ++ [a]).
    { clear. intros A l a. revert n. induction l as [|y l IH]; intros [|n] H; simpl in *; try lia; auto.
      f_equal. apply IH. lia. }
    rewrite !G by lia. rewrite <- !app_assoc. auto.
Qed.

Lemma fill_kv_range_zero v last ks xs : sv_wf v ->
  fill_kv_range v 0 last ks xs =
    Ok (map fst (filter (fun p => fst p <=? last) (sv_data v)),
        map snd (filter (fun p => fst p <=? last) (sv_data v))).
Proof.
  intros (Hs & _). unfold fill_kv_range. rewrite range_data_ok by (auto; lia). simpl.
  rewrite write_kv_spec by (rewrite vec_resize_length; auto). reflexivity.
Qed.

Lemma fill_kv_range_ub v first last ks xs x : sv_wf v ->
  0 < first -> first <= last ->
  In x (sv_data v) -> first <= fst x <= last ->
  fill_kv_range v first last ks xs = UB.
Proof.
  intros (Hs & _) H0 Hle Hin Hx. unfold fill_kv_range. rewrite range_data_ok by (auto; lia). simpl.
  destruct (filter (fun p => (first <=? fst p) && (fst p <=? last)) (sv_data v)) as [|[k y] r] eqn:E; simpl.
  - exfalso. assert (F : In x (filter (fun p => (first <=? fst p) && (fst p <=? last)) (sv_data v))).
    { apply filter_In. split; auto. apply andb_true_iff; split; apply Nat.leb_le; lia. }
    rewrite E in F. contradiction.
  - destruct (Nat.ltb_spec 0 first); [auto|lia].
Qed.

End Export.

Section AddSub.
Context {T : Type}.
Implicit Types (l : list (nat * T)) (v : sv T).
Variable op : T -> T -> T.

Lemma combine_into_spec l : forall d : list T,
  keys_sorted l -> Forall (fun p => fst p < length d) l ->
  exists d', mfold (fun d (p : nat * T) =>
           obind (vec_get d (fst p)) (fun y => vec_set d (fst p) (op y (snd p)))) l d = Ok d' /\
    length d' = length d /\
    forall i dft, i < length d -> nth i d' dft =
       match assoc i l with Some x => op (nth i d dft) x | None => nth i d dft end.
Proof.
  induction l as [|[k x] l IH]; intros d Hs Hb; simpl.
  - exists d; auto.
  - rewrite sorted_cons in Hs. destruct Hs as [H1 H2]. inversion Hb as [|a b Ha Hb']; subst. simpl in Ha.
    rewrite (vec_get_ok d k x) by auto. simpl. rewrite vec_set_ok by auto. simpl.
    destruct (IH (upd d k (op (nth k d x) x))) as (d' & E & L & R); auto.
    { eapply Forall_impl; [|exact Hb']. intros a; rewrite upd_length; auto. }
    exists d'. split; auto. split; [now rewrite L, upd_length|].
    intros i dft Hi. rewrite R by (rewrite upd_length; auto).
    destruct (Nat.eqb_spec k i) as [Ek|Ek].
    + subst k. rewrite (assoc_None i l).
      * rewrite nth_upd_eq by auto. f_equal. now apply nth_indep.
      * eapply Forall_impl; [|exact H2]. simpl; intros; lia.
    + destruct (assoc i l); auto; rewrite nth_upd_neq by lia; auto.
Qed.

End AddSub.

Lemma add_spec {T} (add : T -> T -> T) (v : sv T) (dst : list T) :
  sv_wf v -> sv_size v <= length dst -> (forall a, add a (sv_null v) = a) ->
  exists d', combine_into add v dst = Ok d' /\ length d' = length dst /\
    forall i dft, i < length dst -> sv_get v i = Ok (lookup v i) /\ nth i d' dft = add (nth i dst dft) (lookup v i).
Proof.
  intros (Hs & Hb) Hl Hz. unfold combine_into.
  destruct (combine_into_spec add (sv_data v) dst) as (d' & E & L & R); auto.
  { eapply Forall_impl; [|exact Hb]. simpl; intros; lia. }
  exists d'. split; auto. split; auto. intros i dft Hi. split; [now apply sv_get_assoc|].
  rewrite R by auto. unfold lookup. destruct (assoc i (sv_data v)); auto.
Qed.

Lemma add_sub_id {T} (add sub : T -> T -> T) (v : sv T) (dst : list T) :
  sv_wf v -> sv_size v <= length dst -> (forall a b, sub (add a b) b = a) ->
  obind (combine_into add v dst) (combine_into sub v) = Ok dst.
Proof.
  intros (Hs & Hb) Hl Hinv. unfold combine_into.
  destruct (combine_into_spec add (sv_data v) dst) as (d' & E & L & R); auto.
  { eapply Forall_impl; [|exact Hb]. simpl; intros; lia. }
  rewrite E. simpl.
  destruct (combine_into_spec sub (sv_data v) d') as (d2 & E2 & L2 & R2); auto.
  { eapply Forall_impl; [|exact Hb]. simpl; intros; lia. }
  rewrite E2. f_equal.
  destruct dst as [|x0 dst'] eqn:Ed.
  - simpl in *. destruct d2; auto; simpl in *; lia.
  - rewrite <- Ed in *. apply list_ext_nth with (d := x0); [lia|].
    intros i Hi. rewrite R2 by lia. rewrite L2, L in Hi.
    rewrite R by auto. destruct (assoc i (sv_data v)); auto.
Qed.

(** ** Statements used by SparseProps *)
Lemma kv_roundtrip {T} (v w : sv T) :
  sv_size w = sv_size v -> sv_null w = sv_null v ->
  fill_from_kv w (fst (fill_kv v)) (snd (fill_kv v)) = (v, false).
Proof.
  intros Hs Hn. unfold fill_from_kv, fill_kv. simpl. rewrite !map_length, Nat.eqb_refl.
  rewrite combine_map_fst_snd, Hs, Hn. now destruct v.
Qed.

Lemma map_roundtrip {T} (v w : sv T) :
  sv_size w = sv_size v -> sv_null w = sv_null v ->
  fill_from_map w (fill_map v) = v.
Proof.
  intros Hs Hn. unfold fill_from_map, fill_map. rewrite Hs, Hn. now destruct v.
Qed.

Lemma dense_export {T} (v : sv T) : sparse_ok v ->
  exists d, fill_vect (sv_null v) v [] = Ok d /\ length d = sv_size v /\
            forall i dft, i < sv_size v -> sv_get v i = Ok (nth i d dft).
Proof.
  intros Hw. destruct (fill_vect_spec (sv_null v) v [] Hw) as (d & E & L & R).
  exists d. split; auto. split; auto. intros i dft Hi. rewrite R by auto.
  rewrite sv_get_assoc by apply Hw. f_equal.
  destruct (assoc i (sv_data v)); auto. rewrite vec_resize_nil.
  rewrite nth_repeat'. apply Nat.ltb_lt in Hi. now rewrite Hi.
Qed.

Lemma dense_roundtrip {T} (eqb : T -> T -> bool) (v w : sv T) :
  (forall a b, eqb a b = true -> a = b) ->
  sparse_ok v -> sv_size w = sv_size v -> sv_null w = sv_null v ->
  exists d w', fill_vect (sv_null v) v [] = Ok d /\ fill_from_vect eqb w d = Ok w' /\ same_reads w' v.
Proof.
  intros He Hw Hs Hn. destruct (dense_export v Hw) as (d & E & L & R).
  exists d, (mk_sv (sv_size w) (sv_null w) (nonnull_from eqb w 0 d)).
  split; [exact E|]. split.
  { unfold fill_from_vect. rewrite Hs, L, Nat.eqb_refl. reflexivity. } split; simpl; auto.
  intros k. destruct (nonnull_spec eqb He w d 0) as (A & B & C).
  rewrite sv_get_assoc by auto. simpl.
  specialize (C k). rewrite Nat.sub_0_r in C. simpl in C. rewrite C.
  destruct (Nat.lt_ge_cases k (sv_size v)) as [H|H].
  - symmetry; auto.
  - rewrite nth_overflow by lia. rewrite sv_get_assoc by apply Hw. rewrite Hn.
    rewrite assoc_None; auto. destruct Hw as [_ Hb]. eapply Forall_impl; [|exact Hb]. simpl; intros; lia.
Qed.

Lemma range_export {T} (v : sv T) first last :
  sparse_ok v -> first <= last ->
  ~ In last (map fst (sv_data v)) ->
  exists d, fill_vect_range (sv_null v) v [] first last = Ok d /\ length d = last - first /\
            forall i dft, i < last - first -> sv_get v (first + i) = Ok (nth i d dft).
Proof.
  intros Hw Hle Hn.
  destruct (fill_vect_range_spec (sv_null v) v [] first last Hw Hle) as (d & E & L & R).
  { apply assoc_None. apply Forall_forall. intros p Hp e. apply Hn. rewrite <- e. now apply in_map. }
  exists d. split; auto. split; auto. intros i dft Hi. rewrite R by auto.
  rewrite sv_get_assoc by apply Hw. f_equal.
  destruct (assoc (first + i) (sv_data v)); auto. rewrite vec_resize_nil.
  rewrite nth_repeat'. apply Nat.ltb_lt in Hi. now rewrite Hi.
Qed.

Lemma In_assoc {T} (l : list (nat * T)) k : In k (map fst l) -> assoc k l <> None.
Proof.
  induction l as [|[j x] l IH]; simpl; [contradiction|].
  destruct (Nat.eqb_spec j k); [discriminate|]. intros [H|H]; [contradiction|auto].
Qed.

Lemma range_export_ub {T} (zero : T) (v : sv T) dst first last :
  sparse_ok v -> first <= last -> In last (map fst (sv_data v)) ->
  fill_vect_range zero v dst first last = UB.
Proof.
  intros Hw Hle Hin. apply In_assoc in Hin.
  destruct (assoc last (sv_data v)) as [x|] eqn:E; [|congruence].
  eapply fill_vect_range_ub; eauto.
Qed.

Lemma add_reads {T} (add : T -> T -> T) (v : sv T) (dst : list T) :
  sparse_ok v -> sv_size v <= length dst -> (forall a, add a (sv_null v) = a) ->
  exists d', combine_into add v dst = Ok d' /\ length d' = length dst /\
    forall i dft, i < length dst ->
      exists x, sv_get v i = Ok x /\ nth i d' dft = add (nth i dst dft) x.
Proof.
  intros Hw Hl Hz. destruct (add_spec add v dst Hw Hl Hz) as (d' & E & L & R).
  exists d'. split; auto. split; auto. intros i dft Hi. exists (lookup v i). now apply R.
Qed.

Lemma range_map {T} (v : sv T) first last : sparse_ok v -> first <= last ->
  exists m, fill_map_range v first last = Ok m /\
    forall k x, In (k, x) m <-> first + k <= last /\ In (first + k, x) (fill_map v).
Proof.
  intros [Hs _] Hle. unfold fill_map_range, fill_map. rewrite range_data_ok by auto. simpl.
  eexists. split; [reflexivity|]. intros k x. rewrite in_map_iff. split.
  - intros ((j & y) & E & Hin). apply filter_In in Hin as [Hin F]. simpl in *.
    apply andb_prop in F as [F1 F2]. apply Nat.leb_le in F1, F2.
    injection E as <- <-. replace (first + (j - first)) with j by lia. split; [lia|auto].
  - intros [H1 H2]. exists (first + k, x). split.
    + simpl. f_equal. lia.
    + apply filter_In. split; auto. simpl. apply andb_true_intro. split; apply Nat.leb_le; lia.
Qed.

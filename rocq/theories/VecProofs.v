From Coq Require Import Ring_theory Ring.
From Verif Require Import Base VecModel VecSpec.

Section P.
Context {T D : Type}.
Implicit Types (e : store T) (op : T -> T -> T).

Lemma sset_eq (e : store T) k l : sset e k l k = l.
Proof. unfold sset. now rewrite Nat.eqb_refl. Qed.
Lemma sset_neq (e : store T) k l j : j <> k -> sset e k l j = e j.
Proof. intros H. unfold sset. now rewrite (proj2 (Nat.eqb_neq _ _) H). Qed.

Lemma map2_nth (f : T -> T -> T) : forall l1 l2 i x y,
  nth_error l1 i = Some x -> nth_error l2 i = Some y -> nth_error (map2 f l1 l2) i = Some (f x y).
Proof.
  induction l1 as [|a l1 IH]; intros [|b l2] [|i] x y H1 H2; simpl in *; try discriminate.
  - congruence.
  - auto.
Qed.
Lemma map2_length {A B C} (f : A -> B -> C) : forall l1 l2, length l1 = length l2 -> length (map2 f l1 l2) = length l1.
Proof. induction l1 as [|a l1 IH]; intros [|b l2] H; simpl in *; try discriminate; auto. Qed.

Lemma nth_error_ext {A} (l l' : list A) : (forall i, nth_error l i = nth_error l' i) -> l = l'.
Proof.
  revert l'; induction l as [|x l IH]; intros [|y l'] H; auto.
  - specialize (H 0); discriminate.
  - specialize (H 0); discriminate.
  - f_equal; [specialize (H 0); simpl in H; congruence|]. apply IH. intros i. exact (H (S i)).
Qed.

(** The loop invariant: positions below [i] are done, the rest still hold the
    original content. *)
Lemma zip_loop_spec op e0 a b o : length (e0 a) = length (e0 b) -> length (e0 a) = length (e0 o) ->
  forall n i e, i + n = length (e0 o) -> length (e o) = length (e0 o) ->
  (forall k, k <> o -> e k = e0 k) ->
  (forall j, j < i -> nth_error (e o) j = nth_error (map2 op (e0 a) (e0 b)) j) ->
  (forall j, i <= j -> nth_error (e o) j = nth_error (e0 o) j) ->
  exists e', zip_loop op e a b o i n = Ok e' /\ e' o = map2 op (e0 a) (e0 b) /\
             forall k, k <> o -> e' k = e0 k.
Proof.
  intros Hab Hao. induction n as [|n IH]; intros i e Hi Hl Ho Hlt Hge; simpl.
  - exists e. split; auto. split; auto. apply nth_error_ext. intros j.
    destruct (Nat.lt_ge_cases j i); auto.
    rewrite Hge by auto. rewrite !(proj2 (nth_error_None _ _)); auto; [|lia].
    rewrite map2_length by auto. lia.
  - assert (Hx : forall c, (c = a \/ c = b) -> nth_error (e c) i = nth_error (e0 c) i).
    { intros c _. destruct (Nat.eq_dec c o) as [->|N]; [apply Hge; lia|]. now rewrite Ho. }
    unfold vec_get.
    destruct (nth_error (e0 a) i) as [x|] eqn:Ea; [|apply nth_error_None in Ea; lia].
    destruct (nth_error (e0 b) i) as [y|] eqn:Eb; [|apply nth_error_None in Eb; lia].
    rewrite (Hx a), Ea by auto. simpl. rewrite (Hx b), Eb by auto. simpl.
    rewrite vec_set_ok by lia. simpl. apply IH.
    + lia.
    + rewrite sset_eq, upd_length. auto.
    + intros k Hk. rewrite sset_neq; auto.
    + intros j Hj. rewrite sset_eq. destruct (Nat.eq_dec j i) as [->|N].
      * rewrite nth_error_upd_eq by lia. symmetry. now apply map2_nth.
      * rewrite nth_error_upd_neq by lia. apply Hlt. lia.
    + intros j Hj. rewrite sset_eq, nth_error_upd_neq by lia. apply Hge. lia.
Qed.

Lemma zip_call_ok op e a b o : length (e a) = length (e b) -> length (e a) = length (e o) ->
  exists e', zip_call op e a b o = Ok (e', false) /\ e' o = map2 op (e a) (e b) /\
             forall k, k <> o -> e' k = e k.
Proof.
  intros Hab Hao. unfold zip_call.
  rewrite (proj2 (Nat.eqb_eq _ _) Hab), (proj2 (Nat.eqb_eq _ _) Hao). simpl.
  destruct (zip_loop_spec op e a b o Hab Hao (length (e a)) 0 e) as (e' & E & R); auto; try lia.
  rewrite E. simpl. exists e'. auto.
Qed.

Lemma zip_call_throw op e a b o :
  length (e a) <> length (e b) \/ length (e a) <> length (e o) -> zip_call op e a b o = Ok (e, true).
Proof.
  intros H. unfold zip_call.
  destruct (Nat.eqb_spec (length (e a)) (length (e b))); simpl; auto.
  destruct (Nat.eqb_spec (length (e a)) (length (e o))); simpl; auto. tauto.
Qed.

Lemma scale_loop_spec f e0 o : forall n i e, i + n = length (e0 o) -> length (e o) = length (e0 o) ->
  (forall k, k <> o -> e k = e0 k) ->
  (forall j, j < i -> nth_error (e o) j = nth_error (map f (e0 o)) j) ->
  (forall j, i <= j -> nth_error (e o) j = nth_error (e0 o) j) ->
  exists e', scale_loop f e o i n = Ok e' /\ e' o = map f (e0 o) /\ forall k, k <> o -> e' k = e0 k.
Proof.
  induction n as [|n IH]; intros i e Hi Hl Ho Hlt Hge; simpl.
  - exists e. split; auto. split; auto. apply nth_error_ext. intros j.
    destruct (Nat.lt_ge_cases j i); auto.
    rewrite Hge by auto. rewrite !(proj2 (nth_error_None _ _)); auto; [|lia]. rewrite map_length. lia.
  - unfold vec_get. rewrite Hge by auto.
    destruct (nth_error (e0 o) i) as [x|] eqn:Ea; [|apply nth_error_None in Ea; lia]. simpl.
    rewrite vec_set_ok by lia. simpl. apply IH.
    + lia.
    + rewrite sset_eq, upd_length. auto.
    + intros k Hk. rewrite sset_neq; auto.
    + intros j Hj. rewrite sset_eq. destruct (Nat.eq_dec j i) as [->|N].
      * rewrite nth_error_upd_eq by lia. symmetry. now apply map_nth_error.
      * rewrite nth_error_upd_neq by lia. apply Hlt. lia.
    + intros j Hj. rewrite sset_eq, nth_error_upd_neq by lia. apply Hge. lia.
Qed.

Lemma scale_ok f e o : exists e', scale_loop f e o 0 (length (e o)) = Ok e' /\ e' o = map f (e o) /\
  forall k, k <> o -> e' k = e k.
Proof. apply scale_loop_spec; auto. intros j H. lia. Qed.

Lemma ip2_ok (acc : D -> T -> D) mul : forall l1 l2 s, length l1 = length l2 ->
  ip2_loop acc mul l1 l2 s = Ok (fold_left acc (map2 mul l1 l2) s).
Proof. induction l1 as [|x l1 IH]; intros [|y l2] s H; simpl in *; try discriminate; auto. Qed.
Lemma ip3_ok (acc : D -> T -> D) mul : forall l1 l2 l3 s, length l1 = length l2 -> length l1 = length l3 ->
  ip3_loop acc mul l1 l2 l3 s = Ok (fold_left acc (map2 mul (map2 mul l1 l2) l3) s).
Proof. induction l1 as [|x l1 IH]; intros [|y l2] [|z l3] s H H'; simpl in *; try discriminate; auto. Qed.
Lemma ip4_ok (acc : D -> T -> D) mul : forall l1 l2 l3 l4 s,
  length l1 = length l2 -> length l1 = length l3 -> length l1 = length l4 ->
  ip4_loop acc mul l1 l2 l3 l4 s = Ok (fold_left acc (map2 mul (map2 mul (map2 mul l1 l2) l3) l4) s).
Proof.
  induction l1 as [|x l1 IH]; intros [|y l2] [|z l3] [|w l4] s H H' H''; simpl in *; try discriminate; auto.
Qed.

Lemma map2_comm (f : T -> T -> T) : (forall a b, f a b = f b a) -> forall l1 l2, map2 f l1 l2 = map2 f l2 l1.
Proof. intros H. induction l1 as [|x l1 IH]; intros [|y l2]; simpl; auto. now rewrite H, IH. Qed.

Lemma read_row_ok (l : list T) n : forall idx, idx + n <= length l ->
  read_row l idx n = Ok (firstn n (skipn idx l)).
Proof.
  induction n as [|n IH]; intros idx H; simpl; auto.
  destruct (nth_error l idx) as [x|] eqn:E; [|apply nth_error_None in E; lia].
  unfold vec_get. rewrite E. simpl. rewrite IH by lia. simpl.
  assert (S : skipn idx l = x :: skipn (S idx) l).
  { clear - E. revert idx E; induction l as [|y l IH]; intros [|i] E; simpl in *; try discriminate; [congruence|]. now apply IH. }
  rewrite S. reflexivity.
Qed.

Lemma skipn_add {A} (l : list A) n m : skipn n (skipn m l) = skipn (m + n) l.
Proof. revert l; induction m as [|m IH]; intros [|x l]; simpl; auto. now rewrite !skipn_nil. Qed.

Lemma read_rows_ok (l : list T) n_j : forall n_i idx, idx + n_i * n_j = length l ->
  exists rs, read_rows l idx n_i n_j = Ok rs /\ length rs = n_i /\
     Forall (fun r => length r = n_j) rs /\ concat rs = skipn idx l.
Proof.
  induction n_i as [|n IH]; intros idx H; simpl in *.
  - exists []. repeat split; auto. rewrite skipn_all2 by lia. reflexivity.
  - rewrite read_row_ok by lia. simpl.
    destruct (IH (idx + n_j)) as (rs & E & L & F & C). { lia. }
    rewrite E. simpl. eexists. split; [reflexivity|]. split; [simpl; auto|]. split.
    + constructor; auto. rewrite firstn_length, skipn_length. lia.
    + simpl. rewrite C, <- skipn_add. apply firstn_skipn.
Qed.
End P.

(** Laws over a ring. *)
Section Ring.
Context {T : Type} (zero one : T) (add mul sub : T -> T -> T) (opp : T -> T).
Hypothesis rth : ring_theory zero one add mul sub opp (@eq T).
Add Ring Tring : rth.

Lemma fold_add_acc (l : list T) : forall s, fold_left add l s = add s (fold_left add l zero).
Proof.
  induction l as [|x l IH]; intros s; simpl; [ring|]. rewrite IH, (IH (add zero x)). ring.
Qed.

Lemma ip_bilinear c d : forall l1 l2 l3, length l1 = length l2 -> length l1 = length l3 ->
  fold_left add (map2 mul l1 (map2 (fun x y => add (mul c x) (mul d y)) l2 l3)) zero =
  add (mul c (fold_left add (map2 mul l1 l2) zero)) (mul d (fold_left add (map2 mul l1 l3) zero)).
Proof.
  induction l1 as [|x l1 IH]; intros [|y l2] [|z l3] H H'; simpl in *; try discriminate; [ring|].
  rewrite fold_add_acc, (fold_add_acc (map2 mul l1 l2)), (fold_add_acc (map2 mul l1 l3)).
  rewrite IH by lia. ring.
Qed.

Lemma sub_add_id : forall l1 l2, length l1 = length l2 ->
  map2 sub (map2 (fun x y => add (mul one x) (mul one y)) l1 l2) l2 = l1.
Proof.
  induction l1 as [|x l1 IH]; intros [|y l2] H; simpl in *; try discriminate; auto.
  f_equal; [ring|auto].
Qed.
End Ring.

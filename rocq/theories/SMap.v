(** [std::map] as an association list sorted by key.  Keys (strings in the code,
    only compared) are integers. *)
From Verif Require Import Base.
From Coq Require Import Sorted Permutation.
Local Open Scope Z_scope.

Section SMap.
Context {V : Type}.
Definition smap := list (Z * V).

Fixpoint mfind (k : Z) (m : smap) : option V :=
  match m with [] => None | (k', v) :: m' => if k =? k' then Some v else mfind k m' end.
(** [m[k] = v]. *)
Fixpoint minsert (k : Z) (v : V) (m : smap) : smap :=
  match m with
  | [] => [(k, v)]
  | (k', v') :: m' => if k <? k' then (k, v) :: (k', v') :: m'
                      else if k =? k' then (k, v) :: m' else (k', v') :: minsert k v m'
  end.
Fixpoint merase (k : Z) (m : smap) : smap :=
  match m with [] => [] | (k', v') :: m' => if k =? k' then m' else (k', v') :: merase k m' end.
Definition mkeys (m : smap) : list Z := map fst m.
Definition mvals (m : smap) : list V := map snd m.
Definition sorted (m : smap) : Prop := StronglySorted Z.lt (mkeys m).

Lemma mfind_in k m v : mfind k m = Some v -> In (k, v) m.
Proof.
  induction m as [|[k' v'] m IH]; simpl; [discriminate|]. destruct (Z.eqb_spec k k') as [->|]; auto.
  intros E. injection E as ->. auto.
Qed.
Lemma mfind_none k m : mfind k m = None <-> ~ In k (mkeys m).
Proof.
  induction m as [|[k' v'] m IH]; simpl; [tauto|]. destruct (Z.eqb_spec k k') as [->|Hn].
  - split; [discriminate|tauto].
  - rewrite IH. split; intros H; [intros [E|E]; [congruence|tauto]|tauto].
Qed.
Lemma mkeys_insert_in k v m x : In x (mkeys (minsert k v m)) <-> x = k \/ In x (mkeys m).
Proof.
  induction m as [|[k' v'] m IH]; simpl; [split; intros [->|H]; auto; tauto|].
  destruct (Z.ltb_spec k k'); simpl; [split; intros [H1|H1]; auto; tauto|].
  destruct (Z.eqb_spec k k') as [->|]; simpl; [split; intros H1; intuition|].
  rewrite IH. intuition.
Qed.
Lemma mkeys_erase_in k m x : In x (mkeys (merase k m)) -> In x (mkeys m).
Proof.
  induction m as [|[k' v'] m IH]; simpl; auto. destruct (k =? k'); simpl; intuition.
Qed.
Lemma sorted_cons k v m : sorted ((k, v) :: m) <-> sorted m /\ Forall (Z.lt k) (mkeys m).
Proof.
  unfold sorted. simpl. split.
  - intros H. inversion H; subst. auto.
  - intros [H1 H2]. constructor; auto.
Qed.
Lemma sorted_insert k v m : sorted m -> sorted (minsert k v m).
Proof.
  induction m as [|[k' v'] m IH]; intros H; simpl.
  - apply sorted_cons. split; [constructor|constructor].
  - apply sorted_cons in H as [H1 H2]. rewrite Forall_forall in H2. destruct (Z.ltb_spec k k').
    + apply sorted_cons. split; [apply sorted_cons; split; auto; apply Forall_forall; auto|].
      apply Forall_forall. simpl. intros x [<-|Hx]; auto. specialize (H2 _ Hx). lia.
    + destruct (Z.eqb_spec k k') as [->|].
      * apply sorted_cons. split; auto. apply Forall_forall; auto.
      * apply sorted_cons. split; auto. apply Forall_forall. intros x Hx. apply mkeys_insert_in in Hx as [->|Hx]; [lia|auto].
Qed.
Lemma sorted_erase k m : sorted m -> sorted (merase k m).
Proof.
  induction m as [|[k' v'] m IH]; intros H; simpl; auto.
  apply sorted_cons in H as [H1 H2]. destruct (k =? k'); auto.
  apply sorted_cons. split; auto. apply Forall_forall. intros x Hx. rewrite Forall_forall in H2.
  apply H2. eapply mkeys_erase_in; eauto.
Qed.
Lemma mfind_insert_eq k v m : mfind k (minsert k v m) = Some v.
Proof.
  induction m as [|[k' v'] m IH]; simpl; [now rewrite Z.eqb_refl|].
  destruct (Z.ltb_spec k k'); simpl; [now rewrite Z.eqb_refl|].
  destruct (Z.eqb_spec k k') as [->|Hn]; simpl; [now rewrite Z.eqb_refl|].
  destruct (Z.eqb_spec k k'); [contradiction|auto].
Qed.
Lemma mfind_insert_neq k v m x : x <> k -> mfind x (minsert k v m) = mfind x m.
Proof.
  intros Hx. induction m as [|[k' v'] m IH]; simpl; [destruct (Z.eqb_spec x k); [contradiction|auto]|].
  destruct (Z.ltb_spec k k'); simpl; [destruct (Z.eqb_spec x k); [contradiction|auto]|].
  destruct (Z.eqb_spec k k') as [->|Hn]; simpl; [destruct (Z.eqb_spec x k'); [contradiction|auto]|].
  destruct (x =? k'); auto.
Qed.
Lemma mfind_erase_neq k m x : x <> k -> mfind x (merase k m) = mfind x m.
Proof.
  intros Hx. induction m as [|[k' v'] m IH]; simpl; auto.
  destruct (Z.eqb_spec k k') as [->|]; simpl.
  - destruct (Z.eqb_spec x k'); [contradiction|auto].
  - destruct (x =? k'); auto.
Qed.
Lemma mfind_erase_eq k m : sorted m -> mfind k (merase k m) = None.
Proof.
  induction m as [|[k' v'] m IH]; intros H; simpl; auto.
  apply sorted_cons in H as [H1 H2]. rewrite Forall_forall in H2.
  destruct (Z.eqb_spec k k') as [->|Hn]; simpl.
  - apply mfind_none. intros Hx. specialize (H2 _ Hx). lia.
  - destruct (Z.eqb_spec k k'); [contradiction|auto].
Qed.
Lemma minsert_perm k v m : mfind k m = None -> Permutation (minsert k v m) ((k, v) :: m).
Proof.
  induction m as [|[k' v'] m IH]; simpl; intros H; auto.
  destruct (k <? k'); auto. destruct (Z.eqb_spec k k'); [discriminate|].
  rewrite IH by auto. apply perm_swap.
Qed.
Lemma merase_perm k v m : mfind k m = Some v -> Permutation ((k, v) :: merase k m) m.
Proof.
  induction m as [|[k' v'] m IH]; simpl; intros H; [discriminate|].
  destruct (Z.eqb_spec k k') as [->|].
  - injection H as ->. auto.
  - rewrite perm_swap. now rewrite IH.
Qed.
Lemma merase_absent k m : mfind k m = None -> merase k m = m.
Proof.
  induction m as [|[k' v'] m IH]; simpl; auto. destruct (Z.eqb_spec k k'); [discriminate|]. intros H. now rewrite IH.
Qed.
(** A sorted map is determined by its lookups. *)
Lemma mfind_In k v m : sorted m -> In (k, v) m -> mfind k m = Some v.
Proof.
  induction m as [|[k' v'] m IH]; simpl; intros H; [tauto|].
  apply sorted_cons in H as [H1 H2]. rewrite Forall_forall in H2. intros [E|E].
  - injection E as -> ->. now rewrite Z.eqb_refl.
  - destruct (Z.eqb_spec k k') as [->|]; auto.
    assert (In k' (mkeys m)) as Hi by (apply in_map_iff; exists (k', v); auto). specialize (H2 _ Hi). lia.
Qed.
End SMap.
Arguments smap : clear implicits.

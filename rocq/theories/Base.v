(** Common vocabulary of the model. *)
From Coq Require Export List Arith ZArith Lia Bool.
Export ListNotations.

(** Result of a C++ call: a normal value, a C++ exception, or undefined
    behaviour (out-of-bounds access, violated library precondition, use of an
    uninitialised or freed object).  [Throw] and [UB] are kept apart because
    the first is a contract the caller can observe and the second is not. *)
Inductive outcome (A : Type) : Type :=
| Ok (a : A)
| Throw
| UB.
Arguments Ok {A} a.
Arguments Throw {A}.
Arguments UB {A}.

Definition obind {A B} (x : outcome A) (f : A -> outcome B) : outcome B :=
  match x with Ok a => f a | Throw => Throw | UB => UB end.

Declare Scope outcome_scope.
Delimit Scope outcome_scope with outcome.
Notation "x <- e ;; k" := (obind e (fun x => k))
  (at level 61, e at next level, right associativity) : outcome_scope.

(** [vec_at l i]: [l[i]] on a std::vector without bounds checking. *)
Definition vec_get {A} (l : list A) (i : nat) : outcome A :=
  match nth_error l i with Some a => Ok a | None => UB end.

(** [l.at(i)]: throws std::out_of_range. *)
Definition vec_at {A} (l : list A) (i : nat) : outcome A :=
  match nth_error l i with Some a => Ok a | None => Throw end.

(** Replace element [i]; the caller has checked [i < length l]. *)
Fixpoint upd {A} (l : list A) (i : nat) (x : A) : list A :=
  match l, i with
  | [], _ => []
  | _ :: l', 0 => x :: l'
  | y :: l', S i' => y :: upd l' i' x
  end.

(** [l[i] = x] without bounds checking. *)
Definition vec_set {A} (l : list A) (i : nat) (x : A) : outcome (list A) :=
  if i <? length l then Ok (upd l i x) else UB.

(** [v.resize(n, d)] of std::vector: keeps the first [n] elements, appends
    copies of [d] if it grows. *)
Definition vec_resize {A} (l : list A) (n : nat) (d : A) : list A :=
  firstn n l ++ repeat d (n - length l).

Fixpoint mfold {A S} (f : S -> A -> outcome S) (l : list A) (s : S) : outcome S :=
  match l with
  | [] => Ok s
  | a :: l' => obind (f s a) (mfold f l')
  end.

Lemma upd_length {A} (l : list A) i x : length (upd l i x) = length l.
Proof. revert i; induction l as [|y l IH]; intros [|i]; simpl; auto. Qed.

Lemma nth_error_upd_eq {A} (l : list A) i x :
  i < length l -> nth_error (upd l i x) i = Some x.
Proof. revert i; induction l as [|y l IH]; intros [|i]; simpl; intros; try lia; auto. apply IH; lia. Qed.

Lemma nth_error_upd_neq {A} (l : list A) i j x :
  i <> j -> nth_error (upd l i x) j = nth_error l j.
Proof.
  revert i j; induction l as [|y l IH]; intros [|i] [|j]; simpl; intros H; try lia; auto.
Qed.

Lemma nth_upd_eq {A} (l : list A) i x d : i < length l -> nth i (upd l i x) d = x.
Proof. revert i; induction l as [|y l IH]; intros [|i]; simpl; intros; try lia; auto. apply IH; lia. Qed.

Lemma nth_upd_neq {A} (l : list A) i j x d : i <> j -> nth j (upd l i x) d = nth j l d.
Proof.
  revert i j; induction l as [|y l IH]; intros [|i] [|j]; simpl; intros H; try lia; auto.
Qed.

Lemma upd_out {A} (l : list A) i x : length l <= i -> upd l i x = l.
Proof. revert i; induction l as [|y l IH]; intros [|i]; simpl; intros; try lia; auto. f_equal; apply IH; lia. Qed.

Lemma vec_get_ok {A} (l : list A) i d : i < length l -> vec_get l i = Ok (nth i l d).
Proof.
  intros H. unfold vec_get. rewrite (nth_error_nth' l d H). reflexivity.
Qed.

Lemma vec_set_ok {A} (l : list A) i x : i < length l -> vec_set l i x = Ok (upd l i x).
Proof. intros H. unfold vec_set. apply Nat.ltb_lt in H. now rewrite H. Qed.

Lemma vec_resize_length {A} (l : list A) n d : length (vec_resize l n d) = n.
Proof.
  unfold vec_resize. rewrite app_length, firstn_length, repeat_length. lia.
Qed.

Lemma mfold_app {A S} (f : S -> A -> outcome S) l1 l2 s :
  mfold f (l1 ++ l2) s = obind (mfold f l1 s) (mfold f l2).
Proof.
  revert s; induction l1 as [|a l1 IH]; intros s; simpl; auto.
  destruct (f s a); simpl; auto.
Qed.

Lemma list_ext_nth {A} (l l' : list A) (d : A) :
  length l = length l' -> (forall i, i < length l -> nth i l d = nth i l' d) -> l = l'.
Proof.
  intros Hl H. apply nth_ext with (d := d) (d' := d); auto.
Qed.

From Coq Require Import Reals String Lra.
From Verif Require Import Base DerivSpec UnbinGrad CmpModel CmpSpec.
Local Open Scope string_scope.
Local Open Scope list_scope.

(** ** gradients of functions of lists *)
Fixpoint G (H : list R -> R) (xs ds : list R) : Prop :=
  match xs, ds with
  | [], [] => True
  | x :: xs', d :: ds' => derivable_pt_lim (fun t => H (t :: xs')) x d /\ G (fun l => H (x :: l)) xs' ds'
  | _, _ => False
  end.

Lemma dl_ext f g x d : (forall t, f t = g t) -> derivable_pt_lim f x d -> derivable_pt_lim g x d.
Proof. intros E H eps He. destruct (H eps He) as [a Ha]. exists a. intros h Hh Hl. rewrite <- !E. auto. Qed.

Lemma G_len : forall xs ds H, G H xs ds -> length ds = length xs.
Proof. induction xs as [|x xs IH]; intros [|d ds] H HG; simpl in *; try tauto. destruct HG as [_ HG]. f_equal. eapply IH; eauto. Qed.

Lemma G_ext : forall xs ds H K, (forall l, length l = length xs -> H l = K l) -> G H xs ds -> G K xs ds.
Proof.
  induction xs as [|x xs IH]; intros [|d ds] H K E HG; simpl in *; try tauto. destruct HG as [HD HG]. split.
  - eapply dl_ext; [|exact HD]. intros t. apply E. reflexivity.
  - eapply IH; [|exact HG]. intros l Hl. apply E. simpl. now f_equal.
Qed.

Lemma G_plus : forall xs d1 d2 H K, G H xs d1 -> G K xs d2 ->
  G (fun l => H l + K l)%R xs (map (fun p => fst p + snd p)%R (combine d1 d2)).
Proof.
  induction xs as [|x xs IH]; intros [|d ds] [|e es] H K HG KG; simpl in *; try tauto.
  destruct HG as [HD HG], KG as [KD KG]. split.
  - apply (derivable_pt_lim_plus _ _ _ _ _ HD KD).
  - apply (IH ds es (fun l => H (x :: l)) (fun l => K (x :: l))); auto.
Qed.

Lemma G_add_const : forall xs d H c, G H xs d -> G (fun l => H l + c)%R xs d.
Proof.
  induction xs as [|x xs IH]; intros [|d ds] H c HG; simpl in *; try tauto. destruct HG as [HD HG]. split.
  - replace d with (d + 0)%R by lra. apply (derivable_pt_lim_plus _ _ _ _ _ HD (derivable_pt_lim_const c x)).
  - apply (IH ds (fun l => H (x :: l))); auto.
Qed.

Lemma G_const c : forall xs, G (fun _ => c) xs (repeat 0%R (length xs)).
Proof. induction xs as [|x xs IH]; simpl; auto. split; auto. apply derivable_pt_lim_const. Qed.

Lemma G_split : forall xs ys d1 d2 (H : list R -> list R -> R), G (fun x => H x ys) xs d1 -> G (fun y => H xs y) ys d2 ->
  G (fun l => H (firstn (length xs) l) (skipn (length xs) l)) (xs ++ ys) (d1 ++ d2).
Proof.
  induction xs as [|x xs IH]; intros ys [|d ds] d2 H H1 H2; simpl in *; try tauto.
  destruct H1 as [HD HG]. split.
  - eapply dl_ext; [|exact HD]. intros t. simpl. rewrite firstn_app, skipn_app, Nat.sub_diag, firstn_all, skipn_all. simpl. now rewrite app_nil_r.
  - apply (IH ys ds d2 (fun a b => H (x :: a) b)); auto.
Qed.

Lemma G_partial : forall xs ds H j d, G H xs ds -> nth_error ds j = Some d -> partial_at (fun l => Some (H l)) xs j d.
Proof.
  induction xs as [|x xs IH]; intros [|e ds] H j d HG Hj; simpl in *; try tauto.
  - destruct j; discriminate.
  - destruct HG as [HD HG]. destruct j as [|j]; simpl in *.
    + injection Hj as ->. exists x, 1%R, (fun t => H (t :: xs)). repeat split; auto; try lra.
    + destruct (IH ds (fun l => H (x :: l)) j d HG Hj) as (v0 & dl & f & A & B & C & D).
      exists v0, dl, f. simpl. auto.
Qed.

Lemma partial_G : forall xs ds H, length ds = length xs -> (forall j d, nth_error ds j = Some d -> partial_at (fun l => Some (H l)) xs j d) -> G H xs ds.
Proof.
  induction xs as [|x xs IH]; intros [|e ds] H HL HP; simpl in *; try discriminate; auto. split.
  - destruct (HP 0 e eq_refl) as (v0 & dl & f & A & B & C & D). simpl in *. injection A as <-.
    eapply derive_loc; [exact B| |exact D]. intros y Hy. specialize (C y Hy). now injection C.
  - apply IH; [lia|]. intros j d Hj. destruct (HP (S j) d Hj) as (v0 & dl & f & A & B & C & D). exists v0, dl, f. simpl in *. auto.
Qed.

(** ** replacing the marked entries of a list *)
Fixpoint fill (m : list bool) (vs xs : list R) : list R :=
  match m, vs with
  | true :: m', v :: vs' => match xs with x :: xs' => x :: fill m' vs' xs' | [] => v :: fill m' vs' [] end
  | false :: m', v :: vs' => v :: fill m' vs' xs
  | _, _ => vs
  end.

Fixpoint pick {A} (m : list bool) (vs : list A) : list A :=
  match m, vs with
  | true :: m', v :: vs' => v :: pick m' vs'
  | false :: m', _ :: vs' => pick m' vs'
  | _, _ => []
  end.

Definition count (m : list bool) : nat := length (filter (fun b => b) m).

Lemma count_app a b : count (a ++ b) = count a + count b.
Proof. unfold count. rewrite filter_app, app_length. auto. Qed.

Lemma fill_length : forall m vs xs, length (fill m vs xs) = length vs.
Proof. induction m as [|[] m IH]; intros [|v vs] [|x xs]; simpl; auto. Qed.

Lemma fill_nil : forall m vs, fill m vs [] = vs.
Proof. induction m as [|[] m IH]; intros [|v vs]; simpl; auto; now rewrite IH. Qed.

Lemma fill_none : forall m vs xs, count m = 0 -> fill m vs xs = vs.
Proof. induction m as [|[] m IH]; intros [|v vs] xs; unfold count in *; simpl; intros E; auto; try discriminate. now rewrite IH. Qed.

Lemma fill_app : forall m1 v1 m2 v2 x1 x2, length m1 = length v1 -> count m1 = length x1 ->
  fill (m1 ++ m2) (v1 ++ v2) (x1 ++ x2) = fill m1 v1 x1 ++ fill m2 v2 x2.
Proof.
  induction m1 as [|[] m1 IH]; intros [|v v1] m2 v2 x1 x2 HL HC; simpl in *; try discriminate.
  - destruct x1; [auto|discriminate].
  - destruct x1 as [|x x1]; unfold count in *; simpl in *; [discriminate|]. f_equal. apply IH; lia.
  - f_equal. apply IH; auto.
Qed.

Lemma pick_length {A} : forall m (vs : list A), length m = length vs -> length (pick m vs) = count m.
Proof. induction m as [|[] m IH]; intros [|v vs] H; unfold count in *; simpl in *; try discriminate; auto. Qed.

Lemma pick_fill : forall m vs xs, length m = length vs -> length xs = count m -> pick m (fill m vs xs) = xs.
Proof.
  induction m as [|[] m IH]; intros [|v vs] xs HL HC; unfold count in *; simpl in *; try discriminate; auto.
  - destruct xs; [auto|discriminate].
  - destruct xs as [|x xs]; simpl in *; [discriminate|]. f_equal. apply IH; lia.
Qed.

Fixpoint disjoint (m n : list bool) : Prop :=
  match m, n with
  | a :: m', b :: n' => (a && b)%bool = false /\ disjoint m' n'
  | _, _ => True
  end.

Lemma pick_fill_dis : forall m n vs xs, disjoint m n -> length m = length vs -> length n = length vs ->
  pick m (fill n vs xs) = pick m vs.
Proof.
  induction m as [|a m IH]; intros [|b n] [|v vs] xs HD HL HN; simpl in *; try discriminate; auto.
  destruct HD as [Hab HD]. destruct a, b; simpl in *; try discriminate.
  - f_equal. apply IH; auto.
  - destruct xs; [rewrite fill_nil; auto|apply IH; auto].
  - apply IH; auto.
Qed.

(** filling with what is already there *)
Lemma fill_pick : forall m vs, fill m vs (pick m vs) = vs.
Proof. induction m as [|[] m IH]; intros [|v vs]; simpl; auto; now rewrite IH. Qed.

Lemma G_fill : forall m vs dd H, length m = length vs -> G H vs dd -> G (fun xs => H (fill m vs xs)) (pick m vs) (pick m dd).
Proof.
  induction m as [|[] m IH]; intros [|v vs] [|d dd] H HL HG; simpl in *; try discriminate; try tauto.
  - destruct HG as [HD HG]. split.
    + eapply dl_ext; [|exact HD]. intros t. simpl. now rewrite fill_pick.
    + apply (IH vs dd (fun l => H (v :: l))); auto.
  - destruct HG as [HD HG]. apply (IH vs dd (fun l => H (v :: l))); auto.
Qed.

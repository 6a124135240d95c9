(** Proving [derivatives_ok]. *)
From Coq Require Import Reals Lra.
From Coquelicot Require Import Coquelicot.
From Verif Require Import Base DerivSpec SpecFn.
Local Open Scope R_scope.

Lemma rdiv_ok a b : b <> 0 -> rdiv a b = Some (a / b).
Proof. intros H. unfold rdiv. destruct (Req_EM_T b 0); [contradiction|reflexivity]. Qed.
Lemma rlog_ok a : 0 < a -> rlog a = Some (ln a).
Proof. intros H. unfold rlog. destruct (Rlt_dec 0 a); [reflexivity|contradiction]. Qed.
Lemma rpow_ok a b : 0 < a -> rpow a b = Some (Rpower a b).
Proof. intros H. unfold rpow. destruct (Rlt_dec 0 a); [reflexivity|contradiction]. Qed.

(** Conditions that hold near a point. *)
Lemma near_lt (g h : R -> R) v0 : ex_derive g v0 -> ex_derive h v0 -> g v0 < h v0 -> locally v0 (fun v => g v < h v).
Proof.
  intros Dg Dh H. assert (C : continuous (fun v => h v - g v) v0) by (apply (ex_derive_continuous (fun v => h v - g v)); apply (ex_derive_minus h g v0 Dh Dg)).
  assert (P : 0 < (h v0 - g v0)) by lra. pose proof (C (fun y => 0 < y)) as L. unfold filtermap in L. eapply filter_imp; [|apply L].
  - intros v Hv. simpl in Hv. lra.
  - exists (mkposreal _ P). intros y By. unfold ball in By. simpl in By. unfold AbsRing_ball, abs, minus, plus, opp in By. simpl in By. apply Rabs_def2 in By. lra.
Qed.
Lemma near_pos v0 : 0 < v0 -> locally v0 (fun v => 0 < v).
Proof. apply (near_lt (fun _ => 0) (fun v => v)); auto_derive; auto. Qed.
Lemma near_ne (g : R -> R) v0 c : ex_derive g v0 -> g v0 <> c -> locally v0 (fun v => g v <> c).
Proof.
  intros Dg H. destruct (Rdichotomy _ _ H) as [L|L].
  - eapply filter_imp; [|apply (near_lt g (fun _ => c) v0 Dg); [apply ex_derive_const|exact L]]. intros v Hv. simpl in Hv. lra.
  - eapply filter_imp; [|apply (near_lt (fun _ => c) g v0); [apply ex_derive_const|exact Dg|exact L]]. intros v Hv. simpl in Hv. lra.
Qed.
Lemma near_const (v0 : R) (P : Prop) : P -> locally v0 (fun _ => P).
Proof. intros H. apply filter_forall. auto. Qed.

Lemma near_and (v0 : R) (P Q : R -> Prop) : locally v0 P -> locally v0 Q -> locally v0 (fun v => P v /\ Q v).
Proof. apply filter_and. Qed.

Lemma partial_intro F p i v0 d (f : R -> R) : nth_error p i = Some v0 -> locally v0 (fun v => F (upd p i v) = Some (f v)) -> is_derive f v0 d -> partial_at F p i d.
Proof.
  intros H [e L] D. exists v0, e, f. split; auto. split; [apply cond_pos|]. split; [|now apply is_derive_Reals].
  intros v Hv. apply L. unfold ball; simpl; unfold AbsRing_ball, abs, minus, plus, opp; simpl. exact Hv.
Qed.
(** Moving a value moves the true value by the scale. *)
Lemma trues_length sc : forall p, length sc = length p -> length (trues sc p) = length p.
Proof. intros p H. unfold trues. rewrite map_length, combine_length. lia. Qed.
Lemma trues_nth sc : forall p i v s, nth_error p i = Some v -> nth_error sc i = Some s -> nth_error (trues sc p) i = Some (v * s).
Proof. unfold trues. induction sc as [|s0 sc IH]; intros [|v0 p] [|i] v s; simpl; try discriminate. intros [= <-] [= <-]. reflexivity. intros A B. now apply IH. Qed.
Lemma trues_upd sc : forall p i v s, nth_error sc i = Some s -> (i < length p)%nat -> trues sc (upd p i v) = upd (trues sc p) i (v * s).
Proof.
  unfold trues. induction sc as [|s0 sc IH]; intros [|v0 p] [|i] v s; simpl; try discriminate; intros H L; try lia.
  - injection H as <-. reflexivity.
  - f_equal. apply IH; auto. lia.
Qed.
Lemma partial_scale (F : list R -> option R) sc p i s d : nth_error sc i = Some s -> (i < length p)%nat -> partial_at F (trues sc p) i d -> partial_at (fun q => F (trues sc q)) p i (d * s).
Proof.
  intros Hs Hi (t0 & delta & f & Ht & Hd & Hf & Df). destruct (nth_error p i) as [v0|] eqn:Hv; [|apply nth_error_None in Hv; lia].
  rewrite (trues_nth _ _ _ _ _ Hv Hs) in Ht. injection Ht as <-.
  assert (Pd : 0 < delta / (Rabs s + 1)). { apply Rdiv_lt_0_compat; auto. pose proof (Rabs_pos s). lra. }
  exists v0, (delta / (Rabs s + 1)), (fun v => f (v * s)). split; auto. split; auto. split.
  - intros v Hv'. rewrite (trues_upd sc p i v s) by auto. apply Hf. replace (v * s - v0 * s) with ((v - v0) * s) by ring. rewrite Rabs_mult.
    pose proof (Rabs_pos s). apply Rle_lt_trans with (Rabs (v - v0) * (Rabs s + 1)). apply Rmult_le_compat_l; [apply Rabs_pos|lra].
    apply Rlt_le_trans with (delta / (Rabs s + 1) * (Rabs s + 1)). apply Rmult_lt_compat_r; auto. lra. right. field. lra.
  - replace (d * s) with (d * (1 * s + v0 * 0)) by ring. apply (derivable_pt_lim_comp (fun v => v * s) f).
    + replace (1 * s + v0 * 0) with s by ring. apply is_derive_Reals. auto_derive; auto. ring.
    + exact Df.
Qed.
Lemma derivatives_intro n (dom : nat -> list R -> list R -> R -> Prop) V D :
  (forall t sc x i s, length t = n -> length sc = n -> (i < n)%nat -> nth_error sc i = Some s -> dom i sc t x ->
     exists d, D i t sc x = Some (d * s) /\ partial_at (fun q => V q x) t i d) -> derivatives_ok n dom V D.
Proof.
  intros H sc p x i Ls Lp Hi Hd. destruct (nth_error sc i) as [s|] eqn:Hs; [|apply nth_error_None in Hs; lia].
  destruct (H (trues sc p) sc x i s) as (d & A & B); auto. rewrite trues_length; lia. exists (d * s). split; auto. apply (partial_scale (fun q => V q x)); auto. lia.
Qed.
(** ** Tactics *)
Ltac pos := first [assumption | lra | apply exp_pos | (apply Rdiv_lt_0_compat; pos) | (apply Rmult_lt_0_compat; pos) | (apply Rinv_0_lt_compat; pos)].
Ltac nz := first [assumption | lra | (apply Rgt_not_eq; unfold Rgt; pos) | (apply Rinv_neq_0_compat; nz) | (apply Rmult_integral_contrapositive_currified; nz) | (apply Rgt_not_eq; apply sqrt_lt_R0; pose proof PI_RGT_0; lra)].
Ltac op := repeat first [rewrite rdiv_ok by nz | rewrite rlog_ok by pos | rewrite rpow_ok by pos].
Lemma ex_swap (A B : R -> Prop) : (exists d, B d /\ A d) -> exists d, A d /\ B d.
Proof. firstorder. Qed.
Ltac start := apply derivatives_intro; intros t sc x i s Lt Ls Hi Hs Hd; repeat (destruct t as [|? t]; try (simpl in Lt; discriminate Lt)); clear Lt.
Ltac always := apply filter_forall; let v := fresh "v" in intros v; cbn [upd].
Ltac near H := eapply filter_imp; [|exact H]; let v := fresh "v" in let Hv := fresh "Hv" in intros v Hv; simpl in Hv; cbn [upd].
Ltac side := repeat split; first [exact I | pos | nz].
(** One parameter: [Ok] gives the value in closed form, [D] is the derivative. *)
Ltac closed Ok := first [always; apply Ok; solve [auto | lra] | match goal with H : locally _ _ |- _ => near H; apply Ok; solve [auto | lra | tauto] end].
Ltac param Ok D := apply ex_swap; eexists;
  (split; [eapply partial_intro; [reflexivity | closed Ok | auto_derive; [try side|reflexivity]]
          |unfold D; match goal with H : nth_error _ _ = Some _ |- _ => rewrite ?H end; try rewrite Ok by (auto; lra); op; f_equal; unfold Rpower, Rdiv, Rminus; try (field; try side)]).

(** Lemmas about the fit scanner's cache. *)
From Verif Require Import Base AccumModel AccumProofs VecModel VecProofs PoissonModel PoissonSpec PoissonProofs FscModel FscSpec.
From Verif Require SmapNpred.
From Coq Require Import Reals Lra Lia Permutation.
Local Open Scope R_scope.

(** A template: a source with its reference value. *)
Definition tmpl (p : source * R) : list R := map (Rmult (snd p)) (s_shape (fst p)).
Definition tscale (p : source * R) : R := s_norm (fst p) / snd p.
Definition tname (p : source * R) : Z := s_name (fst p).
Definition tfree (p : source * R) : bool := s_free (fst p).

Lemma flagged_map {A B} (f : A -> bool) (g : A -> B) l : flagged (map f l) (map g l) = map g (filter f l).
Proof. induction l as [|x l IH]; simpl; auto. rewrite IH. destruct (f x); reflexivity. Qed.

Lemma total_model_sum fixed b : forall (l : list (source * R)) (T : source * R -> list R) (S : source * R -> R),
  total_model fixed (map T l) (map S l) b = nth b fixed 0 + Rsum (map (fun p => S p * nth b (T p) 0) l).
Proof. induction l as [|p l IH]; intros T S; simpl; [lra|]. rewrite IH. lra. Qed.

Lemma nth_map0 (f : R -> R) l b : f 0 = 0 -> nth b (map f l) 0 = f (nth b l 0).
Proof. intros E. rewrite <- E at 1. apply map_nth. Qed.

Lemma nth_tmpl p b : nth b (tmpl p) 0 = snd p * nth b (s_shape (fst p)) 0.
Proof. unfold tmpl. rewrite nth_map0; auto. lra. Qed.

(** Positions of the free sources. *)
Fixpoint fpos (i : nat) (l : list (source * R)) : list nat :=
  match l with [] => [] | p :: l' => if tfree p then i :: fpos (S i) l' else fpos (S i) l' end.

Lemma free_indices_spec : forall (l : list (source * R)) pre names,
  length names = length pre ->
  free_indices (pre ++ map snd l) (length pre) (map tfree l) = Ok (fpos (length pre) l, map snd (filter tfree l)) /\
    map (nth_error (names ++ map tname l)) (fpos (length pre) l) = map (fun p => Some (tname p)) (filter tfree l).
Proof.
  induction l as [|p l IH]; intros pre names E; [auto|].
  destruct (IH (pre ++ [snd p]) (names ++ [tname p])) as (E1 & E2); [rewrite !app_length; simpl; lia|].
  rewrite app_length in E1, E2. simpl in E1, E2. rewrite Nat.add_1_r in E1, E2. rewrite <- !app_assoc in E1, E2. simpl in E1, E2.
  simpl. destruct (tfree p) eqn:Fp.
  - unfold vec_get at 1. rewrite (nth_error_app2 pre), Nat.sub_diag by lia. simpl. rewrite E1. simpl.
    split; auto. rewrite E2. f_equal.
    rewrite <- E, nth_error_app2, Nat.sub_diag by lia. reflexivity.
  - rewrite E1. split; auto.
Qed.

(** The sources behind the cache. *)
Record inv (nbins : nat) (test : Z) (srcs : list source) (k : cache) (tm : list (source * R)) : Prop := {
  i_wf : well_formed nbins srcs;
  i_names : k_names k = map tname tm;
  i_all : k_all k = map tmpl tm;
  i_refs : k_refs k = map snd tm;
  i_in : forall p, In p tm -> In (fst p) srcs /\ tname p <> test /\ snd p <> 0;
  i_nodup : NoDup (map tname tm);
  i_len : length (k_fixed k) = nbins;
  i_fixed : forall b, nth b (k_fixed k) 0 = Rsum (map (fun s => count_in s b) (others test (map tname tm) srcs));
  i_other : forall s, In s (others test (map tname tm) srcs) -> s_free s = false }.

Definition tail_ok (k : cache) (n : nat) (tail : list (list R * R)) : Prop :=
  k_test k = None /\ tail = [] \/ (exists x, k_test k = Some n /\ tail = [(k_target k, x)]).

Record cur (k : cache) (tm : list (source * R)) (tail : list (list R * R)) : Prop := {
  c_refs : k_curRefs k = map snd (filter tfree tm);
  c_pos : k_indices k = fpos 0 tm;
  c_idx : map (nth_error (k_names k)) (k_indices k) = map (fun p => Some (tname p)) (filter tfree tm);
  c_tail : tail_ok k (length (filter tfree tm)) tail;
  c_models : k_models k = map tmpl (filter tfree tm) ++ map fst tail;
  c_init : k_init k = map tscale (filter tfree tm) ++ map snd tail;
  c_total : forall b, nth b (k_curFixed k) 0 + Rsum (map (fun p => tscale p * nth b (tmpl p) 0) (filter tfree tm)) =
     nth b (k_fixed k) 0 + Rsum (map (fun p => tscale p * nth b (tmpl p) 0) tm);
  c_pars : length (k_pars k) = length (k_models k);
  c_grad : length (k_grad k) = length (k_models k);
  c_cov : length (k_cov k) = length (k_models k);
  c_rows : forall r, In r (k_cov k) -> length r = length (k_models k) }.

Lemma in_others test names srcs s : In s (others test names srcs) <-> In s srcs /\ s_name s <> test /\ ~ In (s_name s) names.
Proof.
  unfold others. rewrite filter_In, Bool.andb_true_iff, !Bool.negb_true_iff, Z.eqb_neq.
  rewrite <- Bool.not_true_iff_false, existsb_exists. split.
  - intros (H & H1 & H2). repeat split; auto. intros I. apply H2. exists (s_name s). split; auto. apply Z.eqb_refl.
  - intros (H & H1 & H2). repeat split; auto. intros (z & I & E). apply Z.eqb_eq in E. subst. auto.
Qed.

Lemma nodup_same srcs s s' : NoDup (map s_name srcs) -> In s srcs -> In s' srcs -> s_name s = s_name s' -> s = s'.
Proof.
  induction srcs as [|x l IH]; simpl; intros N H H' E; [contradiction|]. inversion N; subst.
  destruct H as [->|H], H' as [->|H']; auto.
  - exfalso. apply H2. rewrite E. now apply in_map.
  - exfalso. apply H2. rewrite <- E. now apply in_map.
Qed.

Lemma nodup_of_names {A B} (f : A -> B) l : NoDup (map f l) -> NoDup l.
Proof. apply NoDup_map_inv. Qed.

Lemma filter_split {A} (f g : A -> bool) l :
  Permutation (filter f l) (filter (fun x => f x && negb (g x))%bool l ++ filter (fun x => f x && g x)%bool l).
Proof.
  induction l as [|x l IH]; simpl; auto. destruct (f x); simpl; auto. destruct (g x); simpl; auto.
  rewrite IH. apply Permutation_middle.
Qed.

Lemma predicted_split nbins test srcs k tm : inv nbins test srcs k tm -> forall b,
  predicted test srcs b = Rsum (map (fun s => count_in s b) (others test (map tname tm) srcs)) + Rsum (map (fun p => tscale p * nth b (tmpl p) 0) tm).
Proof.
  intros I b. destruct (i_wf _ _ _ _ _ I) as [N W]. unfold predicted.
  rewrite (Rsum_perm _ _ (Permutation_map _ (filter_split _ (fun s => existsb (Z.eqb (s_name s)) (map tname tm)) srcs))).
  rewrite map_app, Rsum_app. unfold others. f_equal.
  assert (P : Permutation (filter (fun s => (negb (Z.eqb (s_name s) test) && existsb (Z.eqb (s_name s)) (map tname tm))%bool) srcs) (map fst tm)).
  { apply NoDup_Permutation.
    - apply NoDup_filter. eapply nodup_of_names; eauto.
    - apply (nodup_of_names s_name). rewrite map_map. apply (i_nodup _ _ _ _ _ I).
    - intros s. rewrite filter_In, Bool.andb_true_iff, Bool.negb_true_iff, Z.eqb_neq, existsb_exists. split.
      + intros (H & H1 & z & Hz & E). apply Z.eqb_eq in E. subst z. apply in_map_iff in Hz. destruct Hz as (p & E & Hp).
        destruct (i_in _ _ _ _ _ I p Hp) as (H' & _ & _). apply in_map_iff. exists p. split; auto.
        apply (nodup_same srcs); auto.
      + intros H. apply in_map_iff in H. destruct H as (p & <- & Hp). destruct (i_in _ _ _ _ _ I p Hp) as (H' & H1 & _).
        repeat split; auto. exists (tname p). split; [now apply in_map|apply Z.eqb_refl]. }
  rewrite (Rsum_perm _ _ (Permutation_map _ P)), map_map. apply SmapNpred.Rsum_ext. intros p Hp.
  destruct (i_in _ _ _ _ _ I p Hp) as (_ & _ & Hr). rewrite nth_tmpl. unfold tscale, count_in. field. exact Hr.
Qed.

Lemma length_tmpl nbins test srcs k tm p : inv nbins test srcs k tm -> In p tm -> length (tmpl p) = nbins.
Proof. intros I H. unfold tmpl. rewrite map_length. destruct (i_in _ _ _ _ _ I p H) as (H' & _). apply (i_wf _ _ _ _ _ I); auto. Qed.

(** The invariant gives the specification. *)
Definition row_of (p : source * R) : row := {| w_src := fst p; w_template := tmpl p; w_par := tscale p; w_ref := snd p |}.
Lemma inv_faithful nbins test srcs k tm tail : inv nbins test srcs k tm -> cur k tm tail ->
  faithful nbins test srcs k (map row_of (filter tfree tm)) tail.
Proof.
  intros I C. constructor.
  - intros s. rewrite map_map. simpl. split.
    + intros H. apply in_map_iff in H. destruct H as (p & <- & Hp). apply filter_In in Hp. destruct Hp as [Hp Hf].
      destruct (i_in _ _ _ _ _ I p Hp) as (H1 & H2 & _). auto.
    + intros (H1 & H2 & H3). destruct (in_dec Z.eq_dec (s_name s) (map tname tm)) as [H|H].
      * apply in_map_iff in H. destruct H as (p & E & Hp). destruct (i_in _ _ _ _ _ I p Hp) as (H4 & _ & _).
        assert (Q : fst p = s) by (apply (nodup_same srcs); auto; apply (i_wf _ _ _ _ _ I)).
        apply in_map_iff. exists p. split; auto. apply filter_In. split; auto. unfold tfree. congruence.
      * exfalso. assert (Q : s_free s = false) by (apply (i_other _ _ _ _ _ I); apply in_others; auto). congruence.
  - rewrite map_map. simpl. pose proof (i_nodup _ _ _ _ _ I) as N. clear - N. unfold tname in N.
    induction tm as [|p l IH]; simpl in *; [constructor|]. inversion N; subst. destruct (tfree p); auto. simpl. constructor; auto.
    intros H. apply H1. apply in_map_iff in H. destruct H as (q & E & Hq). apply filter_In in Hq. apply in_map_iff. exists q. tauto.
  - intros w H. apply in_map_iff in H. destruct H as (p & <- & Hp). apply filter_In in Hp. destruct Hp as [Hp _]. simpl.
    destruct (i_in _ _ _ _ _ I p Hp) as (_ & _ & Hr). split; [eapply length_tmpl; eauto|]. split.
    + intros b. rewrite nth_tmpl. unfold tscale, count_in. field. exact Hr.
    + unfold tscale. field. exact Hr.
  - rewrite map_map. simpl. symmetry. apply (c_idx _ _ _ C).
  - rewrite map_map. simpl. symmetry. apply (c_refs _ _ _ C).
  - pose proof (c_tail _ _ _ C) as T. unfold tail_ok in T. now rewrite map_length.
  - rewrite map_map. apply (c_models _ _ _ C).
  - rewrite map_map. apply (c_init _ _ _ C).
  - intros b. rewrite map_map. simpl. rewrite (c_total _ _ _ C), (predicted_split _ _ _ _ _ I), (i_fixed _ _ _ _ _ I). reflexivity.
  - apply C. - apply C. - apply C. - apply C.
Qed.

(** Refactoring with the flags and scales of the sources. *)
Definition same_base (k k' : cache) : Prop :=
  k_names k' = k_names k /\ k_all k' = k_all k /\ k_fixed k' = k_fixed k /\ k_target k' = k_target k /\ k_refs k' = k_refs k.
Lemma inv_base nbins test srcs k k' tm : same_base k k' -> inv nbins test srcs k tm -> inv nbins test srcs k' tm.
Proof. intros (E1 & E2 & E3 & E4 & E5) I. destruct I. constructor; congruence || auto. - now rewrite E3. Qed.

Lemma refactor_cur nbins test srcs k tm inc : inv nbins test srcs k tm ->
  exists k' tail, refactorModel k (map tfree tm) (map tscale tm) inc = Ok k' /\ same_base k k' /\ cur k' tm tail /\
    k_pars k' = k_init k' /\ (tail = if inc then [(k_target k, 0)] else []).
Proof.
  intros I. unfold refactorModel. rewrite (i_all _ _ _ _ _ I).
  destruct (refactor_ok (map tmpl tm) (k_fixed k) (map tscale tm) (map tfree tm) (if inc then Some (k_target k) else None)) as (fo & E & L & T).
  { now rewrite !map_length. } { now rewrite !map_length. }
  { rewrite (i_len _ _ _ _ _ I). assert (Q : forall p, In p tm -> length (tmpl p) = nbins) by (intros; eapply length_tmpl; eauto).
    clear - Q. induction tm as [|p l IH]; simpl; constructor.
    - intros _. apply Q. now left. - apply IH. intros q H. apply Q. now right. }
  rewrite E. cbn [obind]. destruct (free_indices_spec tm [] []) as (E1 & E2); auto. simpl in E1, E2.
  rewrite (i_refs _ _ _ _ _ I), E1. cbn [obind fst snd].
  exists {| k_names := k_names k; k_all := map tmpl tm; k_fixed := k_fixed k; k_target := k_target k; k_refs := map snd tm;
     k_models := flagged (map tfree tm) (map tmpl tm) ++ match (if inc then Some (k_target k) else None) with Some m => [m] | None => [] end;
     k_curFixed := fo;
     k_init := flagged (map tfree tm) (map tscale tm) ++ match (if inc then Some (k_target k) else None) with Some _ => [0] | None => [] end;
     k_pars := flagged (map tfree tm) (map tscale tm) ++ match (if inc then Some (k_target k) else None) with Some _ => [0] | None => [] end;
     k_grad := repeat 0 (length (flagged (map tfree tm) (map tmpl tm) ++ match (if inc then Some (k_target k) else None) with Some m => [m] | None => [] end));
     k_cov := repeat (repeat 0 (length (flagged (map tfree tm) (map tmpl tm) ++ match (if inc then Some (k_target k) else None) with Some m => [m] | None => [] end)))
        (length (flagged (map tfree tm) (map tmpl tm) ++ match (if inc then Some (k_target k) else None) with Some m => [m] | None => [] end));
     k_test := if inc then Some (length (flagged (map tfree tm) (map tmpl tm) ++ match (if inc then Some (k_target k) else None) with Some m => [m] | None => [] end) - 1)%nat else None;
     k_free := map tfree tm; k_indices := fpos 0 tm; k_curRefs := map snd (filter tfree tm) |}, (if inc then [(k_target k, 0)] else []).
  rewrite (i_names _ _ _ _ _ I). rewrite !flagged_map in *.
  split; [reflexivity|]. split; [unfold same_base; simpl; rewrite (i_all _ _ _ _ _ I), (i_refs _ _ _ _ _ I), (i_names _ _ _ _ _ I); auto|].
  split; [|split; reflexivity].
  constructor; simpl; auto.
  - unfold tail_ok; simpl. destruct inc; [right; exists 0|left; auto]. split; auto.
    rewrite app_length, !map_length. simpl. f_equal. lia.
  - f_equal. destruct inc; reflexivity.
  - f_equal. destruct inc; reflexivity.
  - intros b. specialize (T b). destruct inc.
    + rewrite total_model_app in T by now rewrite !map_length. simpl in T. rewrite !total_model_sum in T. lra.
    + rewrite !app_nil_r, !total_model_sum in T. exact T.
  - rewrite !app_length, !map_length. destruct inc; reflexivity.
  - now rewrite repeat_length. - now rewrite repeat_length.
  - intros r H. apply repeat_spec in H. subst. now rewrite repeat_length.
Qed.

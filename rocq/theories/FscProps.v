(** C65: the fit scanner's cached model is the likelihood's model. *)
From Verif Require Import Base AccumModel AccumProofs VecModel VecProofs PoissonModel PoissonSpec PoissonProofs FscModel FscSpec FscProofs FscUpdate.
From Verif Require SmapNpred.
From Coq Require Import Reals Lra Lia Permutation.
Local Open Scope R_scope.

(** A cache can be built exactly when no normalisation of a free source or of the test
    source is zero, and then the fit is about the sources of the model. *)
Theorem C65_build nbins test unitRef srcs : well_formed nbins srcs ->
  ((exists k, construct nbins test unitRef srcs = Ok k) <-> nonzero_norms test srcs) /\
  forall k, construct nbins test unitRef srcs = Ok k ->
    k_names k = map s_name (filter (fun s => negb (Z.eqb (s_name s) test) && s_free s)%bool srcs) /\
    (exists rows, faithful nbins test srcs k rows []) /\ k_pars k = k_init k /\
    (forall s b, In s srcs -> s_name s = test -> nth b (k_target k) 0 = nth b (s_shape s) 0).
Proof.
  intros W. split.
  - split; [intros (k & E); eapply construct_needs; eauto|]. intros Z.
    destruct (construct_ok nbins test unitRef srcs W Z) as (k & _ & E & _). eauto.
  - intros k E. pose proof (construct_needs _ _ _ _ _ W E) as Z.
    destruct (construct_ok nbins test unitRef srcs W Z) as (k' & tm & E' & I & C & P & Nm & L & T). rewrite E in E'. injection E' as <-.
    split; [exact Nm|]. split; [exists (map row_of (filter tfree tm)); now apply inv_faithful|]. split; [exact P|].
    intros s b Hs Ht. rewrite T. destruct W as [N _]. clear - N Hs Ht.
    assert (Q : filter (is_test test) srcs = [s]).
    { induction srcs as [|s0 l IH]; [contradiction|]. simpl in *. inversion N; subst. unfold is_test at 1. destruct Hs as [->|Hs].
      - rewrite Z.eqb_refl. f_equal. clear - H1. induction l as [|y l IH]; auto. simpl. unfold is_test at 1.
        destruct (Z.eqb (s_name y) (s_name s)) eqn:E; [exfalso; apply H1; left; now apply Z.eqb_eq|]. apply IH. intros H. apply H1. now right.
      - destruct (Z.eqb (s_name s0) (s_name s)) eqn:E; [exfalso; apply H1; apply Z.eqb_eq in E; rewrite E; now apply in_map|]. auto. }
    rewrite Q. simpl. lra.
Qed.
Print Assumptions C65_build.

(** Whatever has happened to the cache -- updates after changes of the model, fits, the
    test source put in, taken out or replaced -- the fit is about the sources of the model
    it was last synchronised with.  Missing: rebuilds, and remaking the template of a source
    whose normalisation is not positive (see the refutations). *)
Theorem C65_history_partial nbins test unitRef srcs k : history nbins test unitRef srcs k ->
  exists rows tail, faithful nbins test srcs k rows tail.
Proof. intros H. destruct (history_inv _ _ _ _ _ H) as (tm & tail & I & C). eauto using inv_faithful. Qed.
Print Assumptions C65_history_partial.

(** None of these operations fails.  An update keeps the names, the reference values and the
    test source's template; if it remakes the fit then the parameters are the initial ones.
    An update without any action leaves the cache alone. *)
Theorem C65_update_partial nbins test unitRef srcs k srcs' a changed : history nbins test unitRef srcs k ->
  covered nbins test (k_names k) srcs srcs' a changed -> positive_norms srcs' changed ->
  exists k', update_with_action nbins test unitRef srcs' a changed k = Ok k' /\
    k_names k' = k_names k /\ k_refs k' = k_refs k /\ k_target k' = k_target k /\
    ((a_fixed a || a_free a || a_refactor a || a_prior a)%bool = true -> k_pars k' = k_init k') /\
    ((a_fixed a || a_free a || a_refactor a || a_prior a)%bool = false -> k' = k) /\
    ((a_fixed a || a_free a)%bool = false -> (k_test k' = None <-> k_test k = None)).
Proof.
  intros H Cv P. destruct (history_inv _ _ _ _ _ H) as (tm & tail & I & C).
  destruct (update_ok nbins test unitRef srcs srcs' a changed k tm tail I C Cv P) as (k' & tm' & tail' & E & I' & C' & B1 & B2 & B3 & B4).
  exists k'. split; [exact E|]. split; [exact B1|]. split; [exact B2|]. split; [exact B3|].
  destruct (a_fixed a || a_free a || a_refactor a || a_prior a)%bool eqn:Ea.
  - destruct B4 as [B4 B5]. split; [auto|]. split; [discriminate|]. intros Q. rewrite Q in B5.
    pose proof (c_tail _ _ _ C') as T. destruct T as [[T T']|(x & T & T')]; rewrite T' in B5; destruct (k_test k); try discriminate; rewrite T; split; auto; discriminate.
  - subst k'. repeat split; auto; discriminate.
Qed.
Print Assumptions C65_update_partial.

Lemma nth_row (m : list (list R)) i : (i < length m)%nat -> nth i (map (fun r => r ++ [0]) m) [] = nth i m [] ++ [0].
Proof. revert i. induction m as [|r m IH]; intros [|i] H; simpl in *; try lia; auto. apply IH. lia. Qed.

(** The test source: putting it in makes it the last source of the fit, taking it out
    restores the fit without it, replacing it does both; the other sources, what is fixed
    and the templates are not touched, and the parameters fall back to the initial ones
    when it is put in. *)
Theorem C65_test nbins test unitRef srcs k : history nbins test unitRef srcs k ->
  (forall norm, k_test k = None ->
     let k' := addTestSourceToCurrent norm k in
     k_models k' = k_models k ++ [k_target k] /\ k_init k' = k_init k ++ [norm] /\ k_pars k' = k_init k ++ [norm] /\
     k_grad k' = k_grad k ++ [0] /\ k_test k' = Some (length (k_models k)) /\ k_curFixed k' = k_curFixed k /\
     (forall i j, (i < length (k_models k))%nat -> (j < length (k_models k))%nat -> nth j (nth i (k_cov k') []) 0 = nth j (nth i (k_cov k) []) 0) /\
     (forall i j, i = length (k_models k) \/ j = length (k_models k) -> nth j (nth i (k_cov k') []) 0 = 0) /\
     exists k'', removeTestSourceFromCurrent k' = Ok k'' /\ k'' = with_fit k (k_models k) (k_init k) (k_init k) (k_grad k) (k_cov k) None) /\
  (forall norm, k_test k <> None -> addTestSourceToCurrent norm k = k) /\
  (exists k', removeTestSourceFromCurrent k = Ok k' /\ k_test k' = None /\
     k_models k' = firstn (length (k_indices k)) (k_models k) /\ k_init k' = firstn (length (k_indices k)) (k_init k) /\
     (k_test k = None -> k' = k)) /\
  (forall m, exists k', setTestSource m k = Ok k' /\ k_test k' = Some (length (k_indices k)) /\ k_target k' = m /\
     k_models k' = firstn (length (k_indices k)) (k_models k) ++ [m] /\ k_init k' = firstn (length (k_indices k)) (k_init k) ++ [0] /\ k_pars k' = k_init k').
Proof.
  intros H. destruct (history_inv _ _ _ _ _ H) as (tm & tail & I & C).
  assert (Ni : length (k_indices k) = length (filter tfree tm)).
  { rewrite <- (map_length (nth_error (k_names k))), (c_idx _ _ _ C), map_length. reflexivity. }
  assert (FM : firstn (length (k_indices k)) (k_models k) = map tmpl (filter tfree tm)).
  { rewrite Ni, (c_models _ _ _ C), firstn_app, map_length, Nat.sub_diag, app_nil_r.
    apply firstn_all2. now rewrite map_length. }
  assert (FI : firstn (length (k_indices k)) (k_init k) = map tscale (filter tfree tm)).
  { rewrite Ni, (c_init _ _ _ C), firstn_app, map_length, Nat.sub_diag, app_nil_r.
    apply firstn_all2. now rewrite map_length. }
  split; [|split; [|split]].
  - intros norm T k'. destruct (c_tail _ _ _ C) as [[_ E]|(x & E & _)]; [|congruence]. subst tail.
    assert (Lg : length (k_grad k) = length (k_models k)) by apply C.
    assert (Lc : length (k_cov k) = length (k_models k)) by apply C.
    assert (K : k' = with_fit k (k_models k ++ [k_target k]) (k_init k ++ [norm]) (k_init k ++ [norm]) (k_grad k ++ [0])
       (cov_extend (k_cov k) (S (length (k_models k)))) (Some (length (k_models k)))).
    { unfold k', addTestSourceToCurrent. rewrite T. cbv zeta. rewrite app_length, Lg. simpl.
      rewrite Nat.add_1_r. simpl. now rewrite Nat.sub_0_r. }
    rewrite K. unfold with_fit. simpl. repeat (split; [reflexivity|]).
    assert (CE : cov_extend (k_cov k) (S (length (k_models k))) = map (fun r => r ++ [0]) (k_cov k) ++ [repeat 0 (S (length (k_models k)))]).
    { unfold cov_extend. rewrite Lc. replace (S (length (k_models k)) - length (k_models k))%nat with 1%nat by lia. f_equal.
      apply map_ext_in. intros r Hr. rewrite (c_rows _ _ _ C r Hr). replace (S (length (k_models k)) - length (k_models k))%nat with 1%nat by lia. reflexivity. }
    rewrite CE. split; [|split].
    + intros i j Hi Hj. rewrite app_nth1 by (rewrite map_length, Lc; exact Hi).
      rewrite nth_row by (rewrite Lc; exact Hi).
      apply app_nth1. rewrite (c_rows _ _ _ C); [exact Hj|]. apply nth_In. now rewrite Lc.
    + intros i j Hij. destruct (Nat.lt_ge_cases i (length (k_models k))) as [Hi|Hi].
      * rewrite app_nth1 by (rewrite map_length, Lc; exact Hi).
        rewrite nth_row by (rewrite Lc; exact Hi).
        destruct Hij as [Hij|Hij]; [lia|].
        assert (Lr : length (nth i (k_cov k) []) = length (k_models k)) by (apply (c_rows _ _ _ C); apply nth_In; now rewrite Lc).
        rewrite app_nth2, Lr by lia. subst j. rewrite Nat.sub_diag. reflexivity.
      * rewrite app_nth2 by (rewrite map_length, Lc; exact Hi). rewrite map_length, Lc.
        destruct (i - length (k_models k))%nat as [|q]; [|destruct q; destruct j; reflexivity]. cbn [nth]. apply nth_repeat.
    + unfold removeTestSourceFromCurrent. cbn [k_test k_models k_init k_pars k_cov k_grad].
      destruct (k_models k ++ [k_target k]) as [|m0 ms] eqn:Em; [destruct (k_models k); discriminate|]. rewrite <- Em.
      rewrite removelast_last, !app_length, map_length, Lg, Lc. simpl.
      assert (Li : length (k_init k) = length (k_models k)) by (rewrite (c_init _ _ _ C), (c_models _ _ _ C); simpl; now rewrite !app_nil_r, !map_length).
      rewrite Li, (proj2 (Nat.leb_le (length (k_models k)) (length (k_models k) + 1))) by lia. cbn [andb].
      eexists. split; [reflexivity|]. unfold with_fit. simpl.
      assert (F : forall A (l : list A) x n, length l = n -> firstn n (l ++ [x]) = l).
      { intros A l x n <-. rewrite firstn_app, Nat.sub_diag, firstn_all. simpl. apply app_nil_r. }
      rewrite !F by assumption. f_equal. unfold cov_sub. rewrite F by (now rewrite map_length). rewrite map_map.
      apply map_id_in. intros r Hr. apply F. now apply (c_rows _ _ _ C).
  - intros norm T. unfold addTestSourceToCurrent. destruct (k_test k); congruence.
  - destruct (remove_ok k tm tail C) as (k' & E & C' & T & _). exists k'. split; [exact E|]. split; [exact T|].
    rewrite FM, FI, (c_models _ _ _ C'), (c_init _ _ _ C'). simpl. rewrite !app_nil_r. split; [reflexivity|]. split; [reflexivity|].
    intros Tn. unfold removeTestSourceFromCurrent in E. rewrite Tn in E. congruence.
  - intros m. destruct (set_ok k tm tail m C) as (k' & tail' & E & C' & T & G & _). exists k'. split; [exact E|]. rewrite Ni. split; [exact T|]. split; [exact G|].
    rewrite <- Ni, FM, FI. unfold setTestSource in E.
    destruct (remove_ok k tm tail C) as (k1 & E1 & C1 & T1 & _). rewrite E1 in E. cbn [obind] in E. injection E as <-.
    unfold addTestSourceToCurrent, with_fit. cbn [k_test]. rewrite T1. cbn.
    rewrite (c_models _ _ _ C1), (c_init _ _ _ C1). simpl. rewrite !app_nil_r. auto.
Qed.
Print Assumptions C65_test.

(** ** Refactoring at the current parameters *)
Fixpoint merge (tm : list (source * R)) (ps : list R) : list R :=
  match tm with
  | [] => []
  | p :: tm' => if tfree p then match ps with x :: ps' => x :: merge tm' ps' | [] => [] end else 1 :: merge tm' ps
  end.

Lemma merge_length : forall tm ps, length ps = length (filter tfree tm) -> length (merge tm ps) = length tm.
Proof.
  induction tm as [|p tm IH]; intros ps L; simpl in *; auto. destruct (tfree p); simpl in *.
  - destruct ps as [|x ps]; [discriminate|]. simpl in *. f_equal. apply IH. lia.
  - f_equal. now apply IH.
Qed.

Lemma par_scales_loop (pars : list R) : forall tm pre ppre ps rest, pars = ppre ++ ps ++ rest -> length ps = length (filter tfree tm) ->
  mfold (fun (st : list R * nat) i => obind (vec_get pars (snd st)) (fun v => obind (vec_set (fst st) i v) (fun l => Ok (l, S (snd st)))))
    (fpos (length pre) tm) (pre ++ repeat 1 (length tm), length ppre) = Ok (pre ++ merge tm ps, (length ppre + length ps)%nat).
Proof.
  induction tm as [|p tm IH]; intros pre ppre ps rest E L; simpl in *.
  - destruct ps; [|discriminate]. simpl. now rewrite Nat.add_0_r.
  - destruct (tfree p) eqn:Fp; simpl in L.
    + destruct ps as [|x ps]; [discriminate|]. cbn [mfold fst snd].
      assert (Ex : vec_get pars (length ppre) = Ok x) by (unfold vec_get; rewrite E, nth_error_app2, Nat.sub_diag by lia; reflexivity).
      rewrite Ex. cbn [obind].
      assert (Q : vec_set (pre ++ 1 :: repeat 1 (length tm)) (length pre) x = Ok ((pre ++ [x]) ++ repeat 1 (length tm))).
      { rewrite vec_set_ok by (rewrite app_length; simpl; lia). f_equal. rewrite <- app_assoc. simpl.
        clear. induction pre as [|y pre IH]; simpl; [reflexivity|]. now rewrite IH. }
      rewrite Q. cbn [obind].
      specialize (IH (pre ++ [x]) (ppre ++ [x]) ps rest). rewrite !app_length in IH. simpl in IH. rewrite !Nat.add_1_r in IH.
      rewrite IH; [|rewrite E, <- app_assoc; reflexivity|simpl in L; lia]. rewrite <- app_assoc. simpl. f_equal. f_equal. lia.
    + specialize (IH (pre ++ [1]) ppre ps rest). rewrite app_length in IH. simpl in IH. rewrite Nat.add_1_r in IH.
      rewrite <- !app_assoc in IH. simpl in IH. now rewrite IH.
Qed.

Lemma merge_total fixed cfixed b : forall tm ps, length ps = length (filter tfree tm) ->
  total_model fixed (map tmpl tm) (merge tm ps) b + (nth b cfixed 0 - nth b fixed 0) =
  total_model cfixed (map tmpl (filter tfree tm)) ps b + Rsum (map (fun p => nth b (tmpl p) 0) (filter (fun p => negb (tfree p)) tm)).
Proof.
  induction tm as [|p tm IH]; intros ps L; simpl in *.
  - destruct ps; simpl; lra.
  - destruct (tfree p); simpl in *.
    + destruct ps as [|x ps]; [discriminate|]. simpl in *. specialize (IH ps ltac:(lia)). lra.
    + specialize (IH ps L). lra.
Qed.

Lemma Rsum_filter {A} (f : A -> bool) (g : A -> R) l :
  Rsum (map g l) = Rsum (map g (filter f l)) + Rsum (map g (filter (fun x => negb (f x)) l)).
Proof. induction l as [|x l IH]; simpl; [lra|]. destruct (f x); simpl; rewrite IH; lra. Qed.

Lemma free_indices_any refs : forall free i, (i + length free <= length refs)%nat -> exists p, free_indices refs i free = Ok p.
Proof.
  induction free as [|f free IH]; intros i H; simpl in *; [eauto|].
  destruct f; [|apply IH; lia].
  destruct (nth_error refs i) as [r|] eqn:E; [|apply nth_error_None in E; lia].
  unfold vec_get. rewrite E. simpl. destruct (IH (S i)) as (p & ->); [lia|]. simpl. eauto.
Qed.

(** Remaking the fit with another choice of free sources at the current parameters
    ("first we fix everything to their current values"): the total changes by exactly the
    template sources that were fixed in the fit, which come back with the template's
    normalisation (the reference value) instead of their own. *)
Theorem C65_par_scales_partial nbins test unitRef srcs k free include_test : history nbins test unitRef srcs k ->
  length free = length (k_names k) ->
  exists frozen scales k', getParScales k = Ok scales /\ refactorModel k free scales include_test = Ok k' /\
    (forall s r, In (s, r) frozen <-> In s srcs /\ s_name s <> test /\ s_free s = false /\ exists i, nth_error (k_names k) i = Some (s_name s) /\ nth_error (k_refs k) i = Some r) /\
    NoDup (map (fun p => s_name (fst p)) frozen) /\
    forall b, total_model (k_curFixed k') (k_models k') (k_pars k') b =
      total_model (k_curFixed k) (firstn (length (k_indices k)) (k_models k)) (firstn (length (k_indices k)) (k_pars k)) b +
      Rsum (map (fun p => (snd p - s_norm (fst p)) * nth b (s_shape (fst p)) 0) frozen).
Proof.
  intros H Lf. destruct (history_inv _ _ _ _ _ H) as (tm & tail & I & C).
  assert (Ni : length (k_indices k) = length (filter tfree tm)).
  { rewrite <- (map_length (nth_error (k_names k))), (c_idx _ _ _ C), map_length. reflexivity. }
  assert (FM : firstn (length (k_indices k)) (k_models k) = map tmpl (filter tfree tm)).
  { rewrite Ni, (c_models _ _ _ C), firstn_app, map_length, Nat.sub_diag, app_nil_r.
    apply firstn_all2. now rewrite map_length. }
  set (n := length (filter tfree tm)) in *. set (ps := firstn n (k_pars k)).
  assert (Lp : length ps = n).
  { unfold ps. rewrite firstn_length, (c_pars _ _ _ C), (c_models _ _ _ C), app_length, map_length. fold n. lia. }
  exists (filter (fun p => negb (tfree p)) tm), (merge tm ps).
  assert (G : getParScales k = Ok (merge tm ps)).
  { unfold getParScales. rewrite (c_pos _ _ _ C), (i_all _ _ _ _ _ I), map_length.
    pose proof (par_scales_loop (k_pars k) tm [] [] ps (skipn n (k_pars k))) as Q. simpl in Q. rewrite Q; auto.
    unfold ps. symmetry. apply firstn_skipn. }
  assert (Lm : length (merge tm ps) = length tm) by (apply merge_length; exact Lp).
  rewrite (i_names _ _ _ _ _ I), map_length in Lf.
  unfold refactorModel. rewrite (i_all _ _ _ _ _ I).
  destruct (refactor_ok (map tmpl tm) (k_fixed k) (merge tm ps) free (if include_test then Some (k_target k) else None)) as (fo & E & L & T).
  { now rewrite map_length. } { now rewrite map_length, Lm. }
  { rewrite (i_len _ _ _ _ _ I). assert (Q : forall p, In p tm -> length (tmpl p) = nbins) by (intros; eapply length_tmpl; eauto).
    clear - Q Lf. revert tm Lf Q. induction free as [|f free IH]; intros [|p tm] Lf Q; try discriminate; simpl; constructor.
    - intros _. apply Q. now left. - apply IH; [simpl in Lf; lia|]. intros q Hq. apply Q. now right. }
  rewrite E. cbn [obind]. destruct (free_indices_any (k_refs k) free 0) as (p & Ep).
  { rewrite (i_refs _ _ _ _ _ I), map_length. lia. }
  rewrite Ep. cbn [obind]. eexists. split; [exact G|]. split; [reflexivity|]. split; [|split].
  - intros s r. rewrite filter_In, Bool.negb_true_iff. unfold tfree. simpl. split.
    + intros [Hp Hf]. destruct (i_in _ _ _ _ _ I _ Hp) as (Q1 & Q2 & Q3). repeat split; auto.
      apply In_nth_error in Hp. destruct Hp as (i & Hi). exists i.
      rewrite (i_names _ _ _ _ _ I), (i_refs _ _ _ _ _ I), (map_nth_error _ _ _ Hi), (map_nth_error _ _ _ Hi). auto.
    + intros (Q1 & Q2 & Q3 & i & Q4 & Q5). split; auto.
      rewrite (i_names _ _ _ _ _ I) in Q4. rewrite (i_refs _ _ _ _ _ I) in Q5. rewrite nth_error_map in Q4, Q5.
      destruct (nth_error tm i) as [q|] eqn:Hi; [|discriminate]. simpl in Q4, Q5. apply nth_error_In in Hi.
      destruct (i_in _ _ _ _ _ I _ Hi) as (R1 & _). destruct q as [s' r']. unfold tname in Q4. simpl in *.
      assert (s' = s) by (apply (nodup_same srcs); auto; [apply (i_wf _ _ _ _ _ I)|congruence]). congruence.
  - pose proof (i_nodup _ _ _ _ _ I) as N. clear - N. unfold tname in N.
    induction tm as [|q l IH]; simpl in *; [constructor|]. inversion N; subst. destruct (tfree q); auto. simpl. constructor; auto.
    intros Hq. apply H1. apply in_map_iff in Hq. destruct Hq as (q' & E & Hq). apply filter_In in Hq. apply in_map_iff. exists q'. tauto.
  - intros b. cbn [k_curFixed k_models k_pars]. rewrite T, FM, Ni. fold ps.
    pose proof (merge_total (k_fixed k) (k_curFixed k) b tm ps Lp) as Q. pose proof (c_total _ _ _ C b) as Q2.
    rewrite (Rsum_filter tfree (fun p => tscale p * nth b (tmpl p) 0) tm) in Q2.
    assert (Q3 : Rsum (map (fun p : source * R => (snd p - s_norm (fst p)) * nth b (s_shape (fst p)) 0) (filter (fun p => negb (tfree p)) tm)) =
       Rsum (map (fun p => nth b (tmpl p) 0) (filter (fun p => negb (tfree p)) tm)) -
       Rsum (map (fun p => tscale p * nth b (tmpl p) 0) (filter (fun p => negb (tfree p)) tm))).
    { assert (Gen : forall l, (forall q, In q l -> snd q <> 0) -> Rsum (map (fun p : source * R => (snd p - s_norm (fst p)) * nth b (s_shape (fst p)) 0) l) =
        Rsum (map (fun p => nth b (tmpl p) 0) l) - Rsum (map (fun p => tscale p * nth b (tmpl p) 0) l)).
      { induction l as [|q l IH]; intros Hz; simpl; [lra|]. rewrite IH by (intros; apply Hz; now right). rewrite nth_tmpl. unfold tscale.
        assert (snd q <> 0) by (apply Hz; now left). field. auto. }
      apply Gen. intros q Hq. apply filter_In in Hq. destruct (i_in _ _ _ _ _ I _ (proj1 Hq)) as (_ & _ & ?). auto. }
    rewrite Q3. lra.
Qed.
Print Assumptions C65_par_scales_partial.

(** ** What goes wrong *)
Lemma free_indices_ub refs : forall n i, (i <= length refs)%nat -> (length refs < i + n)%nat -> free_indices refs i (repeat true n) = UB.
Proof.
  induction n as [|n IH]; intros i H1 H2; [lia|]. simpl. unfold vec_get.
  destruct (nth_error refs i) as [r|] eqn:E; [|reflexivity]. simpl.
  assert (i < length refs)%nat by (apply nth_error_Some; congruence). rewrite IH by lia. reflexivity.
Qed.


(** A rebuild of a cache that has templates reads reference values that do not exist,
    whatever the new model: the templates of the old model are still there. *)
Theorem C65_rebuild_refuted nbins test unitRef srcs k srcs' a changed : history nbins test unitRef srcs k ->
  k_names k <> [] -> well_formed nbins srcs' -> nonzero_norms test srcs' -> a_rebuild a = true ->
  update_with_action nbins test unitRef srcs' a changed k = UB.
Proof.
  intros H Nn [N W] Z Ar. destruct (history_inv _ _ _ _ _ H) as (tm & tail & I & C).
  unfold update_with_action. rewrite Ar. unfold build_from_model, extractModels. cbn [x_names x_templates x_fixed x_test x_refs].
  match goal with |- context [mfold _ _ ?x] => destruct (extract_spec nbins test unitRef srcs' x) as (x' & E & A1 & A2 & A3 & _) end;
    auto; try apply vec_resize_length.
  rewrite E. cbn [obind]. unfold setCache, refactorModel. cbn [k_all k_fixed k_target k_refs]. simpl in A2, A3.
  set (tm' := map (fun s => (s, refval unitRef s)) (filter (is_template test) srcs')) in *.
  match goal with |- context [refactorModels ?a ?b ?c ?d ?e] => destruct (refactor_ok a b c d e) as (fo & E' & _) end.
  { now rewrite repeat_length. } { now rewrite repeat_length. }
  { clear. induction (x_templates x') as [|y l IHl]; simpl; constructor; [discriminate|exact IHl]. }
  rewrite E'. cbn [obind]. rewrite free_indices_ub; [reflexivity|lia|].
  rewrite A2, A3, app_length, !map_length, (i_all _ _ _ _ _ I), map_length.
  rewrite (i_names _ _ _ _ _ I) in Nn. destruct tm; [contradiction|]. simpl. lia.
Qed.
Print Assumptions C65_rebuild_refuted.

(** Any update of the fixed sources or of a template takes the test source out of the fit. *)
Theorem C65_dropped_refuted nbins test unitRef srcs k srcs' a changed k' : history nbins test unitRef srcs k ->
  covered nbins test (k_names k) srcs srcs' a changed -> positive_norms srcs' changed ->
  (a_fixed a || a_free a)%bool = true -> update_with_action nbins test unitRef srcs' a changed k = Ok k' -> k_test k' = None.
Proof.
  intros H Cv P Ea E. destruct (history_inv _ _ _ _ _ H) as (tm & tail & I & C).
  destruct (update_ok nbins test unitRef srcs srcs' a changed k tm tail I C Cv P) as (k1 & tm' & tail' & E' & I' & C' & _ & _ & _ & B4).
  rewrite E in E'. injection E' as <-. rewrite Ea in B4. cbn [orb] in B4. destruct B4 as [_ ->].
  destruct (c_tail _ _ _ C') as [[T _]|(x & _ & T)]; [exact T|discriminate].
Qed.
Print Assumptions C65_dropped_refuted.

Definition exA (shape norm : R) (free : bool) : source := {| s_name := 1; s_shape := [shape]; s_norm := norm; s_free := free |}.
Definition exF (norm : R) : source := {| s_name := 2; s_shape := [5]; s_norm := norm; s_free := false |}.
Definition exT : source := {| s_name := 9; s_shape := [1]; s_norm := 4; s_free := true |}.
Definition act (f fr r : bool) : action := {| a_rebuild := false; a_fixed := f; a_free := fr; a_refactor := r; a_prior := false |}.

Ltac ev := cbv -[Rplus Rmult Rdiv Rltb Reqb IZR];
  repeat match goal with
  | |- context [Rltb ?a ?b] => destruct (Rltb_spec a b) as [?F|?F]; [try (exfalso; lra)|try (exfalso; apply F; lra)]
  | |- context [Reqb ?a ?b] => destruct (Reqb_spec a b) as [?F|?F]; [try (exfalso; lra)|try (exfalso; apply F; lra)]
  end.

Lemma wf_A x y f : well_formed 1 [exA x y f].
Proof. split; [repeat constructor; simpl; tauto|]. intros s [<-|[]]. reflexivity. Qed.

(** No cache for a model in which the normalisation of a free source is zero. *)
Theorem C65_zero_norm_refuted : well_formed 1 [exA 2 0 true] /\ forall unitRef, construct 1 9 unitRef [exA 2 0 true] = UB.
Proof. split; [apply wf_A|]. intros [|]; ev; reflexivity. Qed.
Print Assumptions C65_zero_norm_refuted.

(** A template that is remade while the normalisation is zero is lost: when the
    normalisation is set back, the cache predicts no counts from the source. *)
Theorem C65_zero_update_refuted : exists k0 k1 k2,
  construct 1 9 false [exA 2 1 true] = Ok k0 /\
  covered 1 9 (k_names k0) [exA 2 1 true] [exA 7 0 true] (act false true true) [1%Z] /\
  update_with_action 1 9 false [exA 7 0 true] (act false true true) [1%Z] k0 = Ok k1 /\
  covered 1 9 (k_names k1) [exA 7 0 true] [exA 7 1 true] (act false false true) [] /\
  update_with_action 1 9 false [exA 7 1 true] (act false false true) [] k1 = Ok k2 /\
  total_model (k_curFixed k2) (k_models k2) (k_init k2) 0 = 0 /\ predicted 9 [exA 7 1 true] 0 = 7.
Proof.
  assert (E0 : exists k0, construct 1 9 false [exA 2 1 true] = Ok k0 /\ k_names k0 = [1%Z] /\ k_all k0 = [[1 * 2]] /\ k_refs k0 = [1] /\ k_fixed k0 = [0]).
  { ev. eexists. split; [reflexivity|]. repeat split. }
  destruct E0 as (k0 & E0 & N0 & A0 & R0 & F0). exists k0.
  assert (E1 : exists k1, update_with_action 1 9 false [exA 7 0 true] (act false true true) [1%Z] k0 = Ok k1 /\ k_names k1 = [1%Z] /\ k_all k1 = [[0 * 7]] /\ k_refs k1 = [1] /\ k_fixed k1 = [0] /\ k_test k1 = None).
  { destruct k0. simpl in N0, A0, R0, F0. subst. ev. eexists. split; [reflexivity|]. repeat split. }
  destruct E1 as (k1 & E1 & N1 & A1 & R1 & F1 & T1). exists k1.
  assert (E2 : exists k2, update_with_action 1 9 false [exA 7 1 true] (act false false true) [] k1 = Ok k2 /\ k_models k2 = [[0 * 7]] /\ k_init k2 = [1 / 1] /\ k_curFixed k2 = [0]).
  { destruct k1. simpl in N1, A1, R1, F1, T1. subst. ev. eexists. split; [reflexivity|]. repeat split. }
  destruct E2 as (k2 & E2 & M2 & I2 & F2). exists k2. rewrite N0, N1, M2, I2, F2.
  split; [exact E0|]. split; [|split; [exact E1|split; [|split; [exact E2|]]]].
  - split; [apply wf_A|]. split; [reflexivity|]. split; [simpl; intros ? []|]. split; [reflexivity|]. split; [apply incl_refl|].
    split; [|reflexivity]. intros s [<-|[]] _. exists (exA 7 0 true). split; [now left|]. split; [reflexivity|]. split; [left; split; [reflexivity|now left]|discriminate].
  - split; [apply wf_A|]. split; [reflexivity|]. split; [simpl; intros ? []|]. split; [reflexivity|]. split; [intros ? []|].
    split; [|reflexivity]. intros s [<-|[]] _. exists (exA 7 1 true). split; [now left|]. split; [reflexivity|]. split; [now right|discriminate].
  - cbv [predicted count_in exA]. simpl. lra.
Qed.
Print Assumptions C65_zero_update_refuted.

(** Fixing everything at the current values changes the model, if a template source was
    already fixed at a value other than its reference value. *)
Theorem C65_par_scales_refuted : exists k0 k1 k2,
  history 1 9 true [exA 2 3 true] k0 /\ history 1 9 true [exA 2 3 false] k1 /\
  update_with_action 1 9 true [exA 2 3 false] (act false false true) [] k0 = Ok k1 /\
  getParScales k1 = Ok [1] /\ refactorModel k1 [false] [1] false = Ok k2 /\
  total_model (k_curFixed k1) (k_models k1) (k_pars k1) 0 = 6 /\ total_model (k_curFixed k2) (k_models k2) (k_pars k2) 0 = 2.
Proof.
  assert (E0 : exists k0, construct 1 9 true [exA 2 3 true] = Ok k0 /\ k_names k0 = [1%Z] /\ k_all k0 = [[3 * 2 * (1 / 3)]] /\ k_refs k0 = [1] /\ k_fixed k0 = [0] /\ k_test k0 = None).
  { ev. eexists. split; [reflexivity|]. repeat split. }
  destruct E0 as (k0 & E0 & N0 & A0 & R0 & F0 & T0). exists k0.
  assert (E1 : exists k1, update_with_action 1 9 true [exA 2 3 false] (act false false true) [] k0 = Ok k1 /\ k_names k1 = [1%Z] /\ k_all k1 = [[3 * 2 * (1 / 3)]] /\ k_refs k1 = [1] /\ k_fixed k1 = [0] /\
    k_models k1 = [] /\ k_indices k1 = [] /\ k_curFixed k1 = [1 * 0 + 3 / 1 * (3 * 2 * (1 / 3))]).
  { destruct k0. simpl in N0, A0, R0, F0, T0. subst. ev. eexists. split; [reflexivity|]. repeat split. }
  destruct E1 as (k1 & E1 & N1 & A1 & R1 & F1 & M1 & I1 & C1). exists k1.
  assert (E2 : exists k2, refactorModel k1 [false] [1] false = Ok k2 /\ k_models k2 = [] /\ k_curFixed k2 = [1 * 0 + 1 * (3 * 2 * (1 / 3))]).
  { destruct k1. simpl in N1, A1, R1, F1, M1, I1, C1. subst. ev. eexists. split; [reflexivity|]. repeat split. }
  destruct E2 as (k2 & E2 & M2 & C2). exists k2.
  assert (H0 : history 1 9 true [exA 2 3 true] k0) by (apply H_construct; [apply wf_A|exact E0]).
  split; [exact H0|]. split; [|split; [exact E1|split; [|split; [exact E2|]]]].
  - refine (H_update 1 9 true _ k0 _ (act false false true) [] k1 H0 _ _ E1); [|intros ? _ []]. rewrite N0. split; [apply wf_A|]. split; [reflexivity|]. split; [simpl; intros ? []|].
    split; [reflexivity|]. split; [intros ? []|]. split; [|reflexivity]. intros s [<-|[]] _. exists (exA 2 3 false).
    split; [now left|]. split; [reflexivity|]. split; [now right|discriminate].
  - unfold getParScales. rewrite I1, A1. reflexivity.
  - rewrite M1, C1, M2, C2. simpl. lra.
Qed.
Print Assumptions C65_par_scales_refuted.

(** A free source, a fixed source and the test source; the test source is put in, the
    fixed source changes, and the cache predicts the new model (without the test source). *)
Example C65_case : exists k0 k1, history 1 9 true [exA 2 3 true; exF 1; exT] k0 /\ k_test k0 = Some 1%nat /\ k_names k0 = [1%Z] /\
  covered 1 9 (k_names k0) [exA 2 3 true; exF 1; exT] [exA 2 3 true; exF 4; exT] (act true false true) [] /\
  update_with_action 1 9 true [exA 2 3 true; exF 4; exT] (act true false true) [] k0 = Ok k1 /\
  history 1 9 true [exA 2 3 true; exF 4; exT] k1 /\ predicted 9 [exA 2 3 true; exF 4; exT] 0 = 26.
Proof.
  assert (W : forall y, well_formed 1 [exA 2 3 true; exF y; exT]).
  { intros y. split; [repeat constructor; simpl; lia|]. intros s [<-|[<-|[<-|[]]]]; reflexivity. }
  destruct (C65_build 1 9 true _ (W 1)) as [B1 B2].
  destruct (proj2 B1) as (k & E). { intros s [<-|[<-|[<-|[]]]] _; simpl; lra. }
  destruct (B2 k E) as (Nm & (rows & F) & _). simpl in Nm.
  assert (H : history 1 9 true [exA 2 3 true; exF 1; exT] k) by (apply H_construct; auto).
  assert (T : k_test k = None) by (destruct (f_test _ _ _ _ _ _ F) as [[T _]|(x & _ & T)]; [exact T|discriminate]).
  destruct (C65_test _ _ _ _ _ H) as [Ad _]. destruct (Ad 0 T) as (_ & _ & _ & _ & Ti & _).
  exists (addTestSourceToCurrent 0 k).
  assert (Lm : length (k_models k) = 1%nat).
  { rewrite (f_models _ _ _ _ _ _ F). simpl. rewrite app_nil_r, map_length.
    assert (P : Permutation (map w_src rows) [exA 2 3 true]).
    { apply NoDup_Permutation.
      - apply (NoDup_map_inv s_name). rewrite map_map. apply (f_distinct _ _ _ _ _ _ F).
      - repeat constructor. simpl. tauto.
      - intros s. rewrite (f_free _ _ _ _ _ _ F). simpl. split.
        + intros ([<-|[<-|[<-|[]]]] & H1 & H2); [left; reflexivity|discriminate H2|exfalso; apply H1; reflexivity].
        + intros [<-|[]]. split; [auto|]. split; [discriminate|reflexivity]. }
    apply Permutation_length in P. rewrite map_length in P. exact P. }
  assert (Nk : k_names (addTestSourceToCurrent 0 k) = [1%Z]) by (unfold addTestSourceToCurrent; rewrite T; exact Nm).
  assert (Hk : history 1 9 true [exA 2 3 true; exF 1; exT] (addTestSourceToCurrent 0 k)) by now apply H_add.
  assert (Cv : covered 1 9 (k_names (addTestSourceToCurrent 0 k)) [exA 2 3 true; exF 1; exT] [exA 2 3 true; exF 4; exT] (act true false true) []).
  { rewrite Nk. split; [apply W|]. split; [reflexivity|]. split; [simpl; intros s [<-|[]]; reflexivity|]. split; [discriminate|]. split; [intros ? []|].
    split; [|reflexivity]. intros s [<-|[<-|[<-|[]]]] Hn; simpl in Hn; try (exfalso; lia).
    exists (exA 2 3 true). split; [now left|]. split; [reflexivity|]. split; [now right|discriminate]. }
  destruct (C65_update_partial _ _ _ _ _ _ _ _ Hk Cv) as (k1 & E1 & _); [intros ? _ []|].
  exists k1. split; [exact Hk|]. split; [rewrite Ti, Lm; reflexivity|]. split; [exact Nk|]. split; [exact Cv|]. split; [exact E1|].
  split; [refine (H_update 1 9 true _ _ _ _ _ k1 Hk Cv _ E1); intros ? _ []|]. cbv [predicted count_in]. simpl. lra.
Qed.
Print Assumptions C65_case.

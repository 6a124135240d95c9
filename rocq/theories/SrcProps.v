(** Properties C15-C17: the source container, its parameter vector, moving sources. *)
From Coq Require Import Sorted Permutation.
From Verif Require Import Base SMap SrcModel SrcSpec SrcProofs.
Local Open Scope Z_scope.

Definition pA : param := mk_par 1 10 1 0 100 true.
Definition pB : param := mk_par 2 20 1 0 100 false.
Definition pC : param := mk_par 1 30 1 0 100 true.

(** C15. For every sequence of building, adding (owned or cloned) and deleting sources and
    deleting all of them, no call is undefined, a call throws exactly when the abstract map
    says so, and afterwards every name holds exactly the parameters the abstract map holds
    for it and the caller holds exactly the sources it should; the names are listed in
    strictly increasing order. *)
Theorem C15_refines_map :
  forall ops : list op, forallb container_op ops = true ->
    exists w es, run empty_world ops = Some (w, es) /\
      (forall n, option_map s_params (mfind n (m_src (w_model w))) = a_has (fst (arun a_init ops)) n) /\
      (forall n s, mfind n (m_src (w_model w)) = Some s -> s_name s = n) /\
      map (fun s => (s_name s, s_params s)) (w_caller w) = a_hand (fst (arun a_init ops)) /\
      map (fun e : option exn => match e with Some _ => true | None => false end) es = snd (arun a_init ops) /\
      StronglySorted Z.lt (map fst (m_src (w_model w))).
Proof.
  intros ops Hc.
  destruct (run_refines ops empty_world a_init wf_empty eq_refl) as (w & es & E & (R1 & R2) & B); auto.
  { split; auto. }
  destruct (run_wf _ _ _ _ wf_empty E) as [[[Hs Hn] _] _].
  exists w, es. repeat (split; auto). intros n s Hf. apply mfind_in in Hf.
  rewrite Forall_forall in Hn. symmetry. apply (Hn _ Hf).
Qed.
Print Assumptions C15_refines_map.

(** C15. A call of addSource or deleteSource that throws changes nothing. *)
Theorem C15_throwing_call_changes_nothing :
  forall w o w' e, container_op o = true -> wf_world w -> step w o = Some (w', Some e) -> w' = w.
Proof.
  intros [m c f k] o w' e Hc [Hw _] E. destruct o; try discriminate; cbn [step w_model w_caller w_freed w_next] in E.
  - destruct (nth_error c i) as [s|]; [|discriminate]. unfold addSource in E.
    destruct fromClone; destruct (mfind _ _); try discriminate; injection E; congruence.
  - unfold deleteSource in E. destruct (mfind name (m_src m)); try discriminate; injection E; congruence.
  - destruct (deleteAll_gen m Hw) as (m' & Ed & _). rewrite Ed in E. discriminate.
Qed.
Print Assumptions C15_throwing_call_changes_nothing.

(** C15. Through every sequence of calls (also the parameter setters, also throwing ones) no
    source object is owned twice and none is lost: the identities in the model, in the
    caller's hands and destroyed are all different, every object ever seen is still one of
    them after any later call. *)
Theorem C15_ownership :
  forall ops ops' w es w' es',
    run empty_world ops = Some (w, es) -> run w ops' = Some (w', es') ->
    NoDup (accounted w') /\ incl (accounted w) (accounted w').
Proof.
  intros ops ops' w es w' es' E E'. destruct (run_wf _ _ _ _ wf_empty E) as [H _].
  destruct (run_wf _ _ _ _ H E') as [(_ & H2 & _) H3]. auto.
Qed.
Print Assumptions C15_ownership.

(** C15. A world built only by container calls and setters satisfies the hypothesis used
    above. *)
Theorem C15_reachable_worlds_are_well_formed :
  forall ops w es, run empty_world ops = Some (w, es) -> wf_world w.
Proof. intros ops w es E. apply (run_wf _ _ _ _ wf_empty E). Qed.
Print Assumptions C15_reachable_worlds_are_well_formed.

Definition build_ops : list op :=
  [OpNew 7 [pA; pB]; OpNew 3 [pC]; OpNew 7 []; OpAdd 0 false; OpAdd 0 true; OpAdd 1 false; OpDel 9; OpDel 7; OpAdd 1 false].
Example C15_case :
  forallb container_op build_ops = true /\
  match run empty_world build_ops with
  | Some (w, es) => map fst (m_src (w_model w)) = [3; 7] /\ map s_name (w_caller w) = [3; 7] /\
                    es = [None; None; None; None; None; Some EDuplicate; Some EUnknown; None; None] /\
                    accounted w = [4; 2; 1; 0]%nat
  | None => False
  end.
Proof. vm_compute. repeat split; auto. Qed.

(** C16. After every sequence of calls in which no setter was refused half-way (value out of
    bounds, or a parameter name the source does not have) the model's parameter vector is the
    concatenation in name order of the sources' parameters, and the list of free sources
    holds exactly the sources with a free parameter. *)
Theorem C16_vector_is_concatenation_partial :
  forall ops w es, run empty_world ops = Some (w, es) ->
    ~ In (Some EOutOfBounds) es -> ~ In (Some EParNotFound) es ->
    m_par (w_model w) = source_params (w_model w) /\
    m_freeSrcs (w_model w) =
      map s_id (filter (fun s => existsb q_free (s_params s)) (map snd (m_src (w_model w)))).
Proof.
  intros ops w es E N1 N2. pose proof (run_synced _ _ _ _ wf_empty eq_refl E N1 N2) as H.
  split; [now apply synced_par|]. unfold synced in H. rewrite H. simpl. clear.
  induction (m_src (w_model w)) as [|[k s] l IH]; simpl; auto. unfold has_free at 1. simpl.
  destruct (existsb q_free (s_params s)); simpl; congruence.
Qed.
Print Assumptions C16_vector_is_concatenation_partial.

(** C16. Setting all, or all free, parameters to values inside their bounds succeeds; reading
    the vector back returns those values; the parameters not selected keep their values;
    names, scales, bounds, free flags, sources and their order are unchanged. *)
Theorem C16_set_values_round_trip :
  forall (free_only : bool) (m : model) (vs : list Z),
    let sel := fun p => if free_only then q_free p else true in
    m_par m = source_params m ->
    Forall2 in_bounds (filter sel (m_par m)) vs ->
    exists m', setValues sel m vs = Done m' /\
      m_par m' = source_params m' /\
      map q_val (filter sel (m_par m')) = vs /\
      map (fun p => if sel p then None else Some (q_val p)) (m_par m') =
      map (fun p => if sel p then None else Some (q_val p)) (m_par m) /\
      map skeleton (m_par m') = map skeleton (m_par m) /\
      source_list m' = source_list m.
Proof.
  intros free_only m vs sel Hp F.
  destruct (setValues_ok sel) with (m := m) (vs := vs) as (m' & E & H1 & H2 & H3 & H4 & H5); auto.
  exists m'. repeat (split; auto). now apply synced_par.
Qed.
Print Assumptions C16_set_values_round_trip.

(** C16. setParams: when every parameter carries the name of the parameter it replaces and no
    spectrum has two parameters of one name, the vector afterwards is the vector given. *)
Theorem C16_set_params_round_trip :
  forall (m : model) (qs : list param),
    m_par m = source_params m -> Forall (fun p => NoDup (map q_name (s_params (snd p)))) (m_src m) ->
    map q_name qs = map q_name (m_par m) ->
    exists m', setParams sel_all m qs = Done m' /\ m_par m' = qs /\ m_par m' = source_params m' /\
      map (fun p => (fst p, s_ids (snd p))) (m_src m') = map (fun p => (fst p, s_ids (snd p))) (m_src m).
Proof.
  intros m qs Hs Hn Eq. rewrite Hs in Eq. unfold source_params in Eq.
  destruct (set_params_all_ok (m_src m) qs Hn (eq_sym Eq)) as (l' & E & R1 & R2).
  unfold setParams, count_sel. rewrite filter_all.
  replace (length qs =? length (m_par m))%nat with true.
  2:{ symmetry. apply Nat.eqb_eq. rewrite Hs. apply (f_equal (@length Z)) in Eq. now rewrite !map_length in Eq. }
  rewrite E. eexists. split; [reflexivity|]. simpl. auto.
Qed.
Print Assumptions C16_set_params_round_trip.

(** C16. A vector of the wrong length throws and changes nothing. *)
Theorem C16_bad_length_changes_nothing :
  forall sel m vs qs,
    (length vs <> length (filter sel (m_par m)) -> setValues sel m vs = Threw EBadLength m) /\
    (length qs <> length (filter sel (m_par m)) -> setParams sel m qs = Threw EBadLength m).
Proof.
  intros sel m vs qs. split; intros H; unfold setValues, setParams, count_sel; rewrite (proj2 (Nat.eqb_neq _ _) H); reflexivity.
Qed.
Print Assumptions C16_bad_length_changes_nothing.

Example C16_case :
  match run empty_world [OpNew 7 [pA; pB]; OpNew 3 [pC]; OpAdd 0 false; OpAdd 0 false; OpSetFree [55; 66]; OpSetFree [1]] with
  | Some (w, es) => map q_val (m_par (w_model w)) = [55; 66; 20] /\ last es None = Some EBadLength /\
                    m_freeSrcs (w_model w) = [1; 0]%nat
  | None => False
  end /\
  let m := syncParams (mk_model [(3, mk_src 1 3 [pC] None); (7, mk_src 0 7 [pA; pB] None)] [] []) in
  Forall2 in_bounds (filter q_free (m_par m)) [55; 66] /\
  Forall (fun p => NoDup (map q_name (s_params (snd p)))) (m_src m).
Proof.
  split; [vm_compute; auto|]. split; simpl.
  - repeat constructor; simpl; lia.
  - repeat constructor; simpl; try lia; intuition lia.
Qed.

(** The full statement is false: a value out of bounds is refused after earlier sources
    have been changed, and the parameter vector still shows the old values. *)
Theorem C16_stale_after_out_of_bounds_refuted :
  exists ops w es, run empty_world ops = Some (w, es) /\ m_par (w_model w) <> source_params (w_model w).
Proof.
  exists [OpNew 7 [pA; pB]; OpNew 3 [pC]; OpAdd 0 false; OpAdd 0 false; OpSetFree [55; 666]].
  eexists _, _. split; [vm_compute; reflexivity|]. vm_compute. discriminate.
Qed.
Print Assumptions C16_stale_after_out_of_bounds_refuted.

(** Worse, after a half-way refused setParams the number of free parameters the model
    reports is stale, and a setFreeParamValues of that length reads past the end of the
    vector it is given. *)
Theorem C16_overrun_after_refused_set_refuted :
  exists ops w es vs, run empty_world ops = Some (w, es) /\
    length vs = length (filter q_free (m_par (w_model w))) /\
    run w [OpSetFree vs] = None.
Proof.
  exists [OpNew 3 [pB]; OpNew 7 [pA]; OpAdd 0 false; OpAdd 0 false;
          OpSetParams [mk_par 2 20 1 0 100 true; mk_par 9 0 1 0 100 true]].
  eexists _, _, [50]. split; [vm_compute; reflexivity|]. vm_compute. auto.
Qed.
Print Assumptions C16_overrun_after_refused_set_refuted.

(** C17. A move between two models that succeeds, or whose source does not exist, conserves
    the source objects. *)
Theorem C17_give_conserves_partial :
  forall a b n a' b' e, give_source a b n = (a', b', e) ->
    (e = None \/ mfind n (m_src a) = None) ->
    Permutation (model_ids a' ++ model_ids b') (model_ids a ++ model_ids b) /\
    (mfind n (m_src a) = None -> e = Some EUnknown /\ a' = a /\ b' = b).
Proof.
  intros a b n a' b' e E H.
  assert (mfind n (m_src a) = None -> e = Some EUnknown /\ a' = a /\ b' = b) as Hu.
  { intros Hn. unfold give_source, deleteSource in E. rewrite Hn in E. injection E; auto. }
  split; auto. destruct H as [->|Hn]; [eapply give_ok; eauto|].
  destruct (Hu Hn) as (_ & -> & ->). reflexivity.
Qed.
Print Assumptions C17_give_conserves_partial.

(** C17. ... and it succeeds whenever the giving model has the source and the receiving one has
    no source of that name; the source is then found in the receiving model only. *)
Theorem C17_give_succeeds :
  forall a b n s, wf_model a -> mfind n (m_src a) = Some s -> mfind n (m_src b) = None ->
    exists a' b', give_source a b n = (a', b', None) /\
      mfind n (m_src b') = Some s /\ mfind n (m_src a') = None /\
      (forall k, k <> n -> mfind k (m_src a') = mfind k (m_src a) /\ mfind k (m_src b') = mfind k (m_src b)).
Proof.
  intros a b n s [H1 H2] Ha Hb. unfold give_source, deleteSource. rewrite Ha. unfold addSource.
  assert (s_name s = n) as Hn. { rewrite Forall_forall in H2. apply mfind_in in Ha. symmetry. apply (H2 _ Ha). }
  rewrite Hn, Hb. eexists _, _. split; [reflexivity|]. simpl. split; [apply mfind_insert_eq|].
  split; [now apply mfind_erase_eq|]. intros k Hk. split; [now apply mfind_erase_neq|now apply mfind_insert_neq].
Qed.
Print Assumptions C17_give_succeeds.

Theorem C17_steal_conserves_partial :
  forall a b n a' b', steal_source a b n = (a', b', None) ->
    Permutation (model_ids a' ++ model_ids b') (model_ids a ++ model_ids b).
Proof.
  intros a b n a' b' E. unfold steal_source in E. destruct (give_source b a n) as [[x y] e] eqn:Eg.
  injection E as -> -> ->. apply give_ok in Eg. rewrite (Permutation_app_comm (model_ids a')), Eg. apply Permutation_app_comm.
Qed.
Print Assumptions C17_steal_conserves_partial.

(** C17. Merging adds exactly the new composite object; splitting removes exactly it. *)
Theorem C17_merge_conserves_partial :
  forall m id n ps ns m', mergeSources m id n ps ns = (m', None) ->
    Permutation (model_ids m') (id :: model_ids m).
Proof.
  intros m id n ps ns m' E. unfold mergeSources in E. destruct (steal_all m [] ns) as [[m1 comp] e] eqn:Es.
  destruct e; [discriminate|]. apply steal_all_ok in Es. simpl in Es. rewrite app_nil_r in Es.
  destruct (addSource m1 _) as [m2|x m2|] eqn:Ea; try discriminate.
  - injection E as <-. rewrite (ids_add _ _ _ Ea). simpl. constructor. rewrite <- Es. rewrite Permutation_app_comm.
    apply Permutation_app_head. match goal with |- Permutation ?x ?y => replace x with y end; [reflexivity|].
    apply flat_map_ext. intros []; reflexivity.
  - unfold addSource in Ea. destruct (mfind _ _); discriminate.
Qed.
Print Assumptions C17_merge_conserves_partial.

Theorem C17_split_conserves_partial :
  forall m n m' s, mfind n (m_src m) = Some s -> splitCompositeSource m n = (m', None) ->
    Permutation (s_id s :: model_ids m') (model_ids m).
Proof.
  intros m n m' s Hf E. unfold splitCompositeSource in E.
  destruct (deleteSource m n) as [[m1|x m1|] [s1|]] eqn:Ed; try discriminate;
    try (unfold deleteSource in Ed; rewrite Hf in Ed; discriminate).
  assert (s1 = s) as -> by (unfold deleteSource in Ed; rewrite Hf in Ed; congruence).
  destruct (s_subs s) as [l|] eqn:El; [|discriminate]. apply give_all_ok in E. rewrite E, (ids_del _ _ _ _ Ed).
  destruct s as [i nm q sub]. simpl in El. subst sub. simpl. constructor. rewrite Permutation_app_comm.
  apply Permutation_app_tail. match goal with |- Permutation ?x ?y => replace x with y end; [reflexivity|].
  apply flat_map_ext. intros []; reflexivity.
Qed.
Print Assumptions C17_split_conserves_partial.

Definition mdl (l : smap source) : model := syncParams (mk_model l [] []).
Definition two : model := mdl [(3, mk_src 1 3 [pC] None); (7, mk_src 0 7 [pA; pB] None)].
Example C17_case :
  (let '(a, b, e) := give_source two (mdl [(4, mk_src 2 4 [] None)]) 3 in
   e = None /\ map fst (m_src a) = [7] /\ map fst (m_src b) = [3; 4]) /\
  (let (m, e) := mergeSources two 9 5 [pA] [7; 3] in
   e = None /\ map fst (m_src m) = [5] /\ model_ids m = [9; 1; 0]%nat /\
   let (m', e') := splitCompositeSource m 5 in e' = None /\ m_src m' = m_src two).
Proof. vm_compute. repeat split. Qed.

(** The full statement is false for calls that throw: the source leaves its model before the
    receiving model refuses it. *)
Theorem C17_give_loses_source_refuted :
  exists a b n a' b' e, wf_model a /\ wf_model b /\ NoDup (model_ids a ++ model_ids b) /\
    give_source a b n = (a', b', Some e) /\ ~ incl (model_ids a) (model_ids a' ++ model_ids b').
Proof.
  exists two, (mdl [(3, mk_src 2 3 [] None)]), 3. eexists _, _, _.
  split; [split; repeat constructor; simpl; lia|]. split; [split; repeat constructor|].
  split; [repeat constructor; simpl; intuition lia|].
  split; [vm_compute; reflexivity|]. vm_compute. intros H. specialize (H 1%nat (or_introl eq_refl)). intuition lia.
Qed.
Print Assumptions C17_give_loses_source_refuted.

(** Splitting a source that is not composite throws and the source is gone. *)
Theorem C17_split_loses_source_refuted :
  exists m n m' e, wf_model m /\ splitCompositeSource m n = (m', Some e) /\ ~ incl (model_ids m) (model_ids m').
Proof.
  exists two, 3. eexists _, _. split; [split; repeat constructor; simpl; lia|].
  split; [vm_compute; reflexivity|]. vm_compute. intros H. specialize (H 1%nat (or_introl eq_refl)). intuition lia.
Qed.
Print Assumptions C17_split_loses_source_refuted.

(** Merging with an unknown name, or into a name already taken, throws and the sources
    already moved are gone. *)
Theorem C17_merge_loses_sources_refuted :
  (exists m m' e, wf_model m /\ mergeSources m 9 5 [pA] [3; 8] = (m', Some e) /\ ~ incl (model_ids m) (model_ids m')) /\
  (exists m m' e, wf_model m /\ mergeSources m 9 7 [pA] [3] = (m', Some e) /\ ~ incl (model_ids m) (model_ids m')).
Proof.
  split; exists two; eexists _, _; (split; [split; repeat constructor; simpl; lia|]);
  (split; [vm_compute; reflexivity|]); vm_compute; intros H; specialize (H 1%nat (or_introl eq_refl)); intuition lia.
Qed.
Print Assumptions C17_merge_loses_sources_refuted.

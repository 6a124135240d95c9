(** Properties C18-C20 for joint likelihoods with tied parameters (Composite2). *)
From Coq Require Import Reals Lra Permutation.
From Verif Require Import Base SMap SrcModel SrcSpec SrcProofs TiedModel TiedSpec TiedProofs TiedDerivs AccumProofs.
Local Open Scope Z_scope.

(** Composites reachable from components without groups by setting the free parameters
    inside their bounds and tying parameters which exist, are in no group yet and have one
    name and one free flag. *)
Inductive reach (dflt : param) : comp2 -> Prop :=
| reach_init h cs : (forall c, In c cs -> aligned (h c)) ->
    reach dflt (fold_right (fun c k => addComponent k c) (mk_c2 h [] [] []) cs)
| reach_set k vs ps k' : reach dflt k -> getFreeParams k = Some ps -> Forall2 in_bounds ps vs ->
    setFreeParamValues k vs = TDone k' -> reach dflt k'
| reach_tie k pars k' n f : reach dflt k -> pars <> [] ->
    (forall c i, In (c, i) pars -> In c (mkeys (k_comps k)) /\ ~ in_some_group k c i /\
       exists p, slot k c i = Some p /\ q_name p = n /\ q_free p = f) ->
    tieParameters dflt k pars = TDone k' -> reach dflt k'.

(** C18. Every composite reached that way is well formed. *)
Theorem C18_reachable_composites_are_well_formed : forall dflt k, reach dflt k -> joint_ok k.
Proof.
  intros dflt k Hr. induction Hr.
  - set (k := fold_right (fun c k => addComponent k c) (mk_c2 h [] [] []) cs).
    assert (k_heap k = h /\ k_tied k = [] /\ k_comps k = fold_right (fun c (m : smap (list nat)) => minsert c [] m) [] cs) as (E1 & E2 & E3).
    { unfold k. clear. induction cs as [|c cs IH]; simpl; auto. destruct IH as (-> & -> & ->). auto. }
    assert (forall c tl, In (c, tl) (k_comps k) -> In c cs /\ tl = []) as H2.
    { rewrite E3. clear. induction cs as [|c0 cs IH]; simpl; [tauto|]. intros c tl Hi.
      assert (forall (m : smap (list nat)) x v, In (x, v) (minsert c0 [] m) -> (x = c0 /\ v = []) \/ In (x, v) m) as HH.
      { induction m as [|[a w] m IHm]; simpl; intros x v; [intros [E|[]]; injection E; auto|].
        destruct (c0 <? a); simpl; [intros [E|E]; [injection E; auto|auto]|].
        destruct (c0 =? a); simpl; [intros [E|E]; [injection E; auto|auto]|].
        intros [E|E]; [auto|]. apply IHm in E. tauto. }
      apply HH in Hi as [[-> ->]|Hi]; auto. destruct (IH _ _ Hi). auto. }
    constructor; unfold in_some_group; rewrite ?E1, ?E2, ?E3; auto.
    + clear. induction cs as [|c cs IH]; simpl; [constructor|now apply sorted_insert].
    + intros c Hc. rewrite <- E3 in Hc. apply mkeys_in_ex in Hc as (tl & Hc). apply H. eapply H2; eauto.
    + intros c tl Hc i. rewrite <- E3 in Hc. destruct (H2 _ _ Hc) as [_ ->]. simpl. split; [tauto|]. intros (t & [] & _).
    + simpl. constructor.
    + simpl. tauto.
  - destruct (setFree_ok k vs ps IHHr H H0) as (k2 & E & J & _). congruence.
  - destruct (tie_ok dflt k pars n f IHHr H H0) as (k2 & t & E & J & _). congruence.
Qed.
Print Assumptions C18_reachable_composites_are_well_formed.

(** C18. Setting the free parameters of a well-formed composite to values inside their bounds
    succeeds, keeps it well formed, and reading them back gives exactly the values that were
    set.  Every component's spectra agree with its parameter vector, every member of a free
    group holds the group's value in the spectrum it belongs to, fixed parameters and the
    set of sources are untouched. *)
Theorem C18_set_free_round_trip :
  forall k vs ps, joint_ok k -> getFreeParams k = Some ps -> Forall2 in_bounds ps vs ->
    exists k', setFreeParamValues k vs = TDone k' /\ joint_ok k' /\
      fetchParamValues k' = Some vs /\
      (forall c, In c (mkeys (k_comps k)) -> m_par (k_heap k' c) = source_params (k_heap k' c)) /\
      (forall c, In c (mkeys (k_comps k)) ->
         map (fun p => (fst p, s_ids (snd p))) (m_src (k_heap k' c)) = map (fun p => (fst p, s_ids (snd p))) (m_src (k_heap k c))) /\
      map t_mem (k_tied k') = map t_mem (k_tied k) /\
      (forall t c i, In t (k_tied k') -> q_free (t_par t) = true -> In (c, i) (t_mem t) ->
         exists p, nth_error (source_params (k_heap k' c)) i = Some p /\ q_val p = q_val (t_par t)) /\
      (forall c i p, In c (mkeys (k_comps k)) -> nth_error (source_params (k_heap k c)) i = Some p -> q_free p = false ->
         nth_error (source_params (k_heap k' c)) i = Some p).
Proof.
  intros k vs ps J Hg F. destruct (setFree_ok k vs ps J Hg F) as (k' & E & J' & (ps' & P1 & P2 & P3) & H1 & H2 & H3 & H4 & H5 & H6 & H7).
  exists k'. split; auto. split; auto. split; [unfold fetchParamValues; rewrite P1; simpl; now rewrite P2|].
  split; [intros; now apply H4|]. split; [intros; now apply H4|]. split; auto. split; auto.
  intros t c i Ht Hf Hi. apply In_nth_error in Ht as (g & Hg'). eapply H5; eauto.
Qed.
Print Assumptions C18_set_free_round_trip.

(** C18. Tying parameters of one name and one free flag which are in no group yet succeeds:
    exactly those parameters form the new group, and all of them hold the value of the first. *)
Theorem C18_tie_gives_one_value :
  forall dflt k c0 i0 rest n f, joint_ok k ->
    (forall c i, In (c, i) ((c0, i0) :: rest) -> In c (mkeys (k_comps k)) /\ ~ in_some_group k c i /\
       exists p, slot k c i = Some p /\ q_name p = n /\ q_free p = f) ->
    exists k' t, tieParameters dflt k ((c0, i0) :: rest) = TDone k' /\ joint_ok k' /\ k_tied k' = k_tied k ++ [t] /\
      (forall x, In x (t_mem t) <-> In x ((c0, i0) :: rest)) /\
      (forall c i, In (c, i) ((c0, i0) :: rest) -> slot k' c i = slot k c0 i0) /\
      (forall c i, ~ In (c, i) ((c0, i0) :: rest) -> slot k' c i = slot k c i).
Proof.
  intros dflt k c0 i0 rest n f J H. destruct (tie_ok dflt k ((c0, i0) :: rest) n f J ltac:(discriminate) H) as (k' & t & E & J' & H1 & H2 & H3 & H4 & H5 & H6 & H7).
  exists k', t. split; auto. split; auto. split; auto. split; auto. split; auto. intros c i Hi. rewrite H4. auto.
Qed.
Print Assumptions C18_tie_gives_one_value.

(** C18. setTiedParamValue gives the group and all its members in the parameter vectors the
    new value and changes no other parameter. *)
Theorem C18_set_tied_value :
  forall k c i t v, joint_ok k -> In t (k_tied k) -> In (c, i) (t_mem t) -> q_free (t_par t) = true -> in_bounds (t_par t) v ->
    exists k' t', setTiedParamValue k c i v = TDone k' /\
      In t' (k_tied k') /\ t_mem t' = t_mem t /\ q_val (t_par t') = v /\
      (forall c' i', In (c', i') (t_mem t) -> option_map q_val (slot k' c' i') = Some v) /\
      (forall c' i', ~ In (c', i') (t_mem t) -> slot k' c' i' = slot k c' i') /\
      length (k_tied k') = length (k_tied k).
Proof.
  intros k c i t v [J1 J2 J3 J4 J5] Ht Hi Hf Hb.
  destruct (set_members_ok v (t_mem t) (k_heap k)) as (h' & E & _ & S1 & S2).
  { intros c' i' Hi'. destruct (J5 t c' i' Ht Hi') as (_ & p & Hp & Hfp & Hbp). exists p. split; auto.
    rewrite Hfp, Hf in Hbp. destruct (Hbp eq_refl) as [L1 L2]. unfold in_bounds in *. lia. }
  assert (tied_setValue (k_heap k) t v = TDone (h', mk_tied (with_val (t_par t) v) (t_mem t))) as Es.
  { unfold tied_setValue, par_set. replace ((q_lo (t_par t) <=? v) && (v <=? q_hi (t_par t))) with true by (unfold in_bounds in *; symmetry; apply andb_true_iff; lia).
    now rewrite E. }
  assert (forall ts, In t ts -> NoDup (flat_map t_mem ts) ->
    exists ts', set_first (k_heap k) ts c i v = TDone (h', ts') /\ In (mk_tied (with_val (t_par t) v) (t_mem t)) ts' /\ length ts' = length ts) as HH.
  { induction ts as [|x ts IH]; intros Hin ND; [contradiction|]. simpl in *.
    destruct Hin as [->|Hin].
    - rewrite (proj2 (has_member_spec t c i) Hi). rewrite Es. eexists. split; [reflexivity|]. split; simpl; auto.
    - assert (has_member x c i = false) as Hx.
      { destruct (has_member x c i) eqn:Hx; auto. apply has_member_spec in Hx. exfalso.
        assert (In (c, i) (flat_map t_mem ts)) as Hin2 by (apply in_flat_map; exists t; auto).
        apply in_split in Hx as (l1 & l2 & El). rewrite El in ND. rewrite <- app_assoc in ND. simpl in ND.
        apply NoDup_remove_2 in ND. apply ND. rewrite !in_app_iff. auto. }
      rewrite Hx. destruct (IH Hin (NoDup_app_r _ _ ND)) as (ts' & E1 & E2 & E3). rewrite E1. eexists. split; [reflexivity|]. simpl. split; auto. }
  destruct (HH _ Ht J4) as (ts' & E1 & E2 & E3). unfold setTiedParamValue. rewrite E1.
  eexists _, _. split; [reflexivity|]. split; [exact E2|]. cbn [t_mem t_par k_tied]. split; auto. split; auto. split; [|split; auto].
  intros c' i' Hi'. unfold slot. simpl. change (nth_error (m_par (h' c')) i') with (hslot h' c' i'). rewrite (S2 _ _ Hi').
  destruct (J5 t c' i' Ht Hi') as (_ & p & Hp & _). unfold slot in Hp. unfold hslot. rewrite Hp. reflexivity.
Qed.
Print Assumptions C18_set_tied_value.

(** *** A concrete composite: two components with three parameters each *)
Definition qA : param := mk_par 1 10 1 0 100 true.
Definition qB : param := mk_par 2 20 1 0 100 false.
Definition qC : param := mk_par 1 30 1 0 100 true.
Definition qF : param := mk_par 1 40 1 0 100 false.
Definition comp_a : model := syncParams (mk_model [(3, mk_src 1 3 [qC] None); (7, mk_src 0 7 [qA; qB] None)] [] []).
Definition comp_b : model := syncParams (mk_model [(3, mk_src 1 3 [qF] None); (7, mk_src 0 7 [qA; qB] None)] [] []).
Definition kab : comp2 := fold_right (fun c k => addComponent k c) (mk_c2 (fun c => if c =? 3 then comp_b else comp_a) [] [] []) [1; 2; 3].
Definition done (r : tres comp2) : comp2 := match r with TDone k | TThrew _ k => k | TUndef => kab end.
Definition vals (k : comp2) (c : Z) : list Z := map q_val (source_params (k_heap k c)).

Lemma kab_reach : reach qA kab.
Proof.
  apply reach_init. intros c _. destruct (c =? 3); (split; [reflexivity|]); simpl; repeat constructor; simpl; intuition congruence.
Qed.
Definition k1 : comp2 := done (tieParameters qA kab [(1, 0%nat); (2, 1%nat)]).
Lemma k1_reach : reach qA k1.
Proof.
  eapply (reach_tie qA kab [(1, 0%nat); (2, 1%nat)] _ 1 true); [apply kab_reach|discriminate| |reflexivity].
  intros c i [E|[E|[]]]; injection E as <- <-; (split; [simpl; tauto|split; [intros (t & [] & _)|]]); eexists; (split; [reflexivity|split; reflexivity]).
Qed.
Example C18_case :
  joint_ok k1 /\ fetchParamValues k1 = Some [10; 30; 10; 30] /\
  exists k', setFreeParamValues k1 [51; 52; 53; 54] = TDone k' /\ fetchParamValues k' = Some [51; 52; 53; 54] /\
    vals k' 1 = [54; 51; 20] /\ vals k' 2 = [52; 54; 20] /\ vals k' 3 = [40; 53; 20].
Proof.
  split; [apply (C18_reachable_composites_are_well_formed qA), k1_reach|]. split; [reflexivity|]. eexists. split; [reflexivity|]. repeat split; reflexivity.
Qed.

(** C18 is false of the code when a free parameter is tied with a fixed one of the same name:
    the group is accepted and free, but the values set afterwards reach the wrong parameters
    and reading them back gives something else. *)
Theorem C18_mixed_tie_misassigns_refuted :
  exists k k' k'' ps vs, joint_ok k /\ tieParameters qA k [(1, 0%nat); (3, 0%nat)] = TDone k' /\
    getFreeParams k' = Some ps /\ Forall2 in_bounds ps vs /\
    setFreeParamValues k' vs = TDone k'' /\ fetchParamValues k'' <> Some vs.
Proof.
  exists kab. eexists _, _, _, [51; 52; 53; 54; 55]. split; [apply (C18_reachable_composites_are_well_formed qA), kab_reach|].
  split; [reflexivity|]. split; [reflexivity|]. split; [repeat constructor; unfold in_bounds; simpl; lia|].
  split; [vm_compute; reflexivity|]. vm_compute. discriminate.
Qed.
Print Assumptions C18_mixed_tie_misassigns_refuted.

(** C18 is false of the code after a group was fixed through getTiedParam(...).setFree(false):
    the components' spectra still count the member as free, and setting the free
    parameters reads past the end of the vector. *)
Theorem C18_fixing_a_group_overruns_refuted :
  exists k t h t' ps vs, joint_ok k /\ k_tied k = [t] /\ tied_setFree (k_heap k) t false = TDone (h, t') /\
    let k' := mk_c2 h (k_comps k) [t'] (k_par k) in
    getFreeParams k' = Some ps /\ Forall2 in_bounds ps vs /\ setFreeParamValues k' vs = TUndef.
Proof.
  exists k1. eexists _, _, _, _, [51; 52; 53]. split; [apply (C18_reachable_composites_are_well_formed qA), k1_reach|].
  split; [reflexivity|]. split; [reflexivity|]. split; [reflexivity|]. split; [repeat constructor; unfold in_bounds; simpl; lia|]. vm_compute. reflexivity.
Qed.
Print Assumptions C18_fixing_a_group_overruns_refuted.

(** C18 is false of the code when a parameter is put into two groups, which is not rejected:
    the members of the first group end up with different values. *)
Theorem C18_parameter_in_two_groups_refuted :
  exists k k1 k2 k3 ps vs t p q, joint_ok k /\
    tieParameters qA k [(1, 0%nat); (2, 0%nat)] = TDone k1 /\ tieParameters qA k1 [(1, 0%nat); (2, 1%nat)] = TDone k2 /\
    getFreeParams k2 = Some ps /\ Forall2 in_bounds ps vs /\ setFreeParamValues k2 vs = TDone k3 /\
    nth_error (k_tied k3) 0 = Some t /\ t_mem t = [(1, 0%nat); (2, 0%nat)] /\
    nth_error (source_params (k_heap k3 1)) 0 = Some p /\ nth_error (source_params (k_heap k3 2)) 0 = Some q /\ q_val p <> q_val q.
Proof.
  exists kab. eexists _, _, _, _, [51; 53; 54; 55], _, _, _. split; [apply (C18_reachable_composites_are_well_formed qA), kab_reach|].
  split; [reflexivity|]. split; [reflexivity|]. split; [reflexivity|]. split; [repeat constructor; unfold in_bounds; simpl; lia|].
  split; [vm_compute; reflexivity|]. repeat (split; [reflexivity|]). vm_compute. discriminate.
Qed.
Print Assumptions C18_parameter_in_two_groups_refuted.

(** C18 is false of the code for a tieParameters call that throws: a parameter already
    visited no longer appears among the free parameters although it is in no group. *)
Theorem C18_throwing_tie_loses_parameter_refuted :
  exists k k' e, joint_ok k /\ tieParameters qA k [(1, 0%nat); (1, 9%nat)] = TThrew e k' /\
    k_tied k' = [] /\ slot k' 1 0 = slot k 1 0 /\ getNumFreeParams k' <> getNumFreeParams k.
Proof.
  exists kab. eexists _, _. split; [apply (C18_reachable_composites_are_well_formed qA), kab_reach|].
  split; [reflexivity|]. split; [reflexivity|]. split; [reflexivity|]. vm_compute. discriminate.
Qed.
Print Assumptions C18_throwing_tie_loses_parameter_refuted.

(** C18 is false of the code when parameters of different names are tied: the tie is
    accepted, but the member takes the name of the group and values set through the group
    never reach it. *)
Theorem C18_tie_different_names_refuted :
  exists k k' k'' ps vs t p, joint_ok k /\ tieParameters qA k [(1, 2%nat); (2, 1%nat)] = TDone k' /\
    getFreeParams k' = Some ps /\ Forall2 in_bounds ps vs /\ setFreeParamValues k' vs = TDone k'' /\
    k_tied k'' = [t] /\ q_val (t_par t) = last vs 0 /\ nth_error (source_params (k_heap k'' 2)) 1 = Some p /\ q_val p <> last vs 0.
Proof.
  exists (mk_c2 (fun c => syncParams (mk_model [(3, mk_src 1 3 [qC; mk_par 5 1 1 0 9 true; mk_par 6 1 1 0 9 true] None)] [] []))
                (k_comps kab) [] []).
  eexists _, _, _, [1; 2; 3; 4; 5; 6; 7; 8], _, _. split.
  { constructor; simpl.
    - repeat constructor; lia.
    - intros c _. split; [reflexivity|]. simpl. repeat constructor; simpl; intuition congruence.
    - intros c tl Hc i. split.
      + destruct Hc as [E|[E|[E|[]]]]; injection E as <- <-; simpl; tauto.
      + intros (t & [] & _).
    - constructor.
    - tauto. }
  split; [reflexivity|]. split; [reflexivity|]. split; [repeat constructor; unfold in_bounds; simpl; lia|].
  split; [vm_compute; reflexivity|]. repeat (split; [reflexivity|]). vm_compute. discriminate.
Qed.
Print Assumptions C18_tie_different_names_refuted.

(** C18 is false of the code for a group of fixed parameters: after tieParameters all members
    read the same, after the next setFreeParamValues they read differently again. *)
Theorem C18_fixed_group_diverges_refuted :
  exists k k' k'' ps vs t p q, joint_ok k /\ tieParameters qA k [(1, 0%nat); (2, 0%nat)] = TDone k' /\
    slot k' 1 0 = slot k' 2 0 /\ getFreeParams k' = Some ps /\ Forall2 in_bounds ps vs /\ setFreeParamValues k' vs = TDone k'' /\
    k_tied k'' = [t] /\ t_mem t = [(1, 0%nat); (2, 0%nat)] /\ slot k'' 1 0 = Some p /\ slot k'' 2 0 = Some q /\ q_val p <> q_val q.
Proof.
  exists (mk_c2 (fun c => syncParams (mk_model [(3, mk_src 1 3 [mk_par 1 (40 + c) 1 0 100 false] None); (7, mk_src 0 7 [qA] None)] [] []))
                (k_comps kab) [] []).
  eexists _, _, _, [51; 52; 53], _, _, _. split.
  { constructor; simpl.
    - repeat constructor; lia.
    - intros c _. split; [reflexivity|]. simpl. repeat constructor; simpl; intuition congruence.
    - intros c tl Hc i. split.
      + destruct Hc as [E|[E|[E|[]]]]; injection E as <- <-; simpl; tauto.
      + intros (t & [] & _).
    - constructor.
    - tauto. }
  split; [reflexivity|]. split; [reflexivity|]. split; [reflexivity|]. split; [repeat constructor; unfold in_bounds; simpl; lia|].
  split; [vm_compute; reflexivity|]. repeat (split; [reflexivity|]). vm_compute. discriminate.
Qed.
Print Assumptions C18_fixed_group_diverges_refuted.

(** C18, C19. The free parameters are exactly the specified entries, in order; getNumFreeParams
    counts them. *)
Theorem C19_params_in_entry_order :
  forall k ps, joint_ok k -> getFreeParams k = Some ps ->
    map Some ps = map (entry_param k) (entries k) /\ getNumFreeParams k = length (entries k).
Proof.
  intros k ps J H. pose proof (params_are_entries k (jk_index k J) ps H) as E. split; auto.
  apply (f_equal (@length _)) in E. rewrite !map_length in E. rewrite <- E.
  unfold getFreeParams in H. destruct (k_comps k) eqn:Ek; [discriminate|]. rewrite <- Ek in *. injection H as <-.
  unfold getNumFreeParams. rewrite app_length, map_length. f_equal. clear. induction (k_comps k) as [|x l IH]; simpl; auto.
  rewrite app_length. now rewrite IH.
Qed.
Print Assumptions C19_params_in_entry_order.

(** C19. getFreeDerivs of a well-formed composite returns one derivative per free parameter,
    in the order of getFreeParams: that of the component for an untied parameter, the sum
    over the members for a group. *)
Theorem C19_joint_gradient :
  forall k fd, joint_ok k ->
    (forall c, In c (mkeys (k_comps k)) -> length (fd c) = length (filter q_free (m_par (k_heap k c)))) ->
    getFreeDerivs k fd = Some (map (entry_deriv k fd) (entries k)).
Proof. intros k fd J H. exact (derivs_ok k (jk_index k J) J fd H). Qed.
Print Assumptions C19_joint_gradient.

Example C19_case :
  joint_ok k1 /\ entries k1 = [Single 1 1; Single 2 0; Single 3 1; Group 0] /\
  getFreeDerivs k1 (fun c => if c =? 3 then [7]%R else if c =? 1 then [1; 2]%R else [10; 20]%R) = Some [2; 10; 7; 0 + 1 + 20]%R /\
  entry_deriv k1 (fun c => if c =? 3 then [7]%R else if c =? 1 then [1; 2]%R else [10; 20]%R) (Group 0) = (1 + (20 + 0))%R.
Proof. split; [apply (C18_reachable_composites_are_well_formed qA), k1_reach|]. repeat split; reflexivity. Qed.

(** C20. findIndex returns the position, among the free parameters, of the one standing for the
    parameter, or -1 when there is none: for every parameter in no group, and for members of
    groups when no group is fixed.  Missing: a parameter in a group while some group is
    fixed, for which the claim is false (below). *)
Theorem C20_find_index_partial :
  forall k c i, joint_ok k -> (in_some_group k c i -> forall t, In t (k_tied k) -> q_free (t_par t) = true) ->
    (exists j e, findIndex k c i = Z.of_nat j /\ nth_error (entries k) j = Some e /\ stands_for k e c i) \/
    (findIndex k c i = -1 /\ forall e, In e (entries k) -> ~ stands_for k e c i).
Proof. intros k c i J H. exact (findIndex_ok k (jk_index k J) c i H). Qed.
Print Assumptions C20_find_index_partial.
Example C20_case : findIndex k1 2 1 = 3 /\ findIndex k1 1 0 = 3 /\ findIndex k1 3 1 = 2 /\ findIndex k1 1 2 = -1 /\ findIndex k1 8 0 = -1.
Proof. repeat split; reflexivity. Qed.

(** C20 is false of the code: a fixed group before the searched one shifts the result, which is
    then not the position of the parameter; and a member of a fixed group is given a position
    although it is no free parameter. *)
Theorem C20_fixed_group_shifts_refuted :
  exists k c i j, joint_ok k /\ findIndex k c i = Z.of_nat j /\
    forall e, nth_error (entries k) j = Some e -> ~ stands_for k e c i.
Proof.
  exists (done (tieParameters qA (done (tieParameters qA kab [(1, 2%nat); (2, 2%nat)])) [(1, 0%nat); (2, 1%nat)])), 1, 0%nat, 4%nat.
  split; [|split; [reflexivity|]].
  - apply (C18_reachable_composites_are_well_formed qA). eapply (reach_tie qA (done (tieParameters qA kab [(1, 2%nat); (2, 2%nat)])) [(1, 0%nat); (2, 1%nat)] _ 1 true); [|discriminate| |reflexivity].
    + eapply (reach_tie qA kab [(1, 2%nat); (2, 2%nat)] _ 2 false); [apply kab_reach|discriminate| |reflexivity].
      intros c i [E|[E|[]]]; injection E as <- <-; (split; [simpl; tauto|split; [intros (t & [] & _)|]]); eexists; (split; [reflexivity|split; reflexivity]).
    + intros c i [E|[E|[]]]; injection E as <- <-; (split; [simpl; tauto|split; [|eexists; (split; [reflexivity|split; reflexivity])]]);
        (intros (t & [<-|[]] & [E|[E|[]]]); discriminate).
  - vm_compute. discriminate.
Qed.
Print Assumptions C20_fixed_group_shifts_refuted.

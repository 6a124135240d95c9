(** Properties C18-C20 for summed likelihoods. *)
From Coq Require Import Reals Lra Permutation.
From Verif Require Import Base SMap SrcModel SrcSpec SrcProofs TiedModel TiedSpec TiedProofs TiedDerivs SummedModel SummedSpec SummedProofs.
Local Open Scope Z_scope.

(** C18. Setting the free parameters of a well-formed summed likelihood inside their bounds
    succeeds, keeps it well formed, and they read back as set.  Afterwards the parameters of
    every component, in its vector and in its spectra, are the same; members of a free group
    hold its value; fixed parameters of the master are untouched. *)
Theorem C18_summed_set_free_round_trip :
  forall u m rest vs ps, sum_ok u m rest -> u_getFreeParams u [] = Some ps -> Forall2 in_bounds ps vs ->
    exists u' m' rest', u_setFree u vs = TDone u' /\ sum_ok u' m' rest' /\ u_fetch u' = Some vs /\
      length (u_comps u') = length (u_comps u) /\ map t_mem (u_tied u') = map t_mem (u_tied u) /\
      (forall c, In c (u_comps u') -> m_par c = m_par m' /\ source_params c = m_par m') /\
      Forall2 (fun c c' => map (fun p => (fst p, s_ids (snd p))) (m_src c') = map (fun p => (fst p, s_ids (snd p))) (m_src c)) (u_comps u) (u_comps u') /\
      (forall t c i, In t (u_tied u') -> q_free (t_par t) = true -> In (c, i) (t_mem t) ->
         exists p, nth_error (m_par m') i = Some p /\ q_val p = q_val (t_par t)) /\
      (forall i p, nth_error (m_par m) i = Some p -> q_free p = false -> nth_error (m_par m') i = Some p).
Proof.
  intros u m rest vs ps S Hg F. destruct (u_setFree_ok u m rest vs ps S Hg F) as (u' & m' & rest' & H1 & H2 & H3 & H4 & H5 & H6 & H7 & H8 & H9 & H10 & H11).
  exists u', m', rest'. auto 12.
Qed.
Print Assumptions C18_summed_set_free_round_trip.

(** C18. Tying distinct parameters of one name which are in no group yet succeeds, free or not:
    exactly those parameters form the new group and all of them equal the first. *)
Theorem C18_summed_tie_gives_one_value :
  forall dflt u m rest i0 pars n, sum_ok u m rest -> NoDup (i0 :: pars) ->
    (forall i, In i (i0 :: pars) -> ~ in_some_group (joint_of u m) 0 i /\ exists p, nth_error (m_par m) i = Some p /\ q_name p = n) ->
    exists u' m' t, u_tie dflt u (i0 :: pars) = TDone u' /\ sum_ok u' m' rest /\ u_tied u' = u_tied u ++ [t] /\
      t_mem t = map (fun i => (0, i)) (i0 :: pars) /\
      (forall i, In i (i0 :: pars) -> nth_error (m_par m') i = nth_error (m_par m) i0) /\
      (forall i, ~ In i (i0 :: pars) -> nth_error (m_par m') i = nth_error (m_par m) i) /\ m_src m' = m_src m.
Proof.
  intros dflt u m rest i0 pars n S ND H. destruct (u_tie_ok dflt u m rest (i0 :: pars) n S ltac:(discriminate) ND) as (u' & m' & t & R); [|exists u', m', t; exact R].
  intros i Hi. destruct (H i Hi) as [H1 H2]. split; auto. intros Hx. apply H1. now apply (so_index _ _ _ S).
Qed.
Print Assumptions C18_summed_tie_gives_one_value.

Definition rA : param := mk_par 1 10 1 0 100 true.
Definition rB : param := mk_par 2 20 1 0 100 false.
Definition rC : param := mk_par 1 30 1 0 100 true.
Definition cmp : model := syncParams (mk_model [(3, mk_src 1 3 [rC; rB] None); (7, mk_src 0 7 [rA; rB] None); (9, mk_src 2 9 [rA] None)] [] []).
Definition u0 : summed := u_add (u_add (mk_sum [] [] []) cmp) cmp.
Lemma u0_ok : sum_ok u0 cmp [cmp].
Proof.
  constructor; simpl; auto.
  - intros c [<-|[<-|[]]]; (split; [reflexivity|split; [reflexivity|]]); simpl; repeat constructor; simpl; intuition congruence.
  - intros i. split; [tauto|]. intros (t & [] & _).
  - constructor.
  - tauto.
Qed.
Definition udone (r : tres summed) : summed := match r with TDone u | TThrew _ u => u | TUndef => u0 end.
(** parameters 0 and 4 tied *)
Definition u1 : summed := udone (u_tie rA u0 [0; 4]%nat).
Lemma u1_ok : exists m, sum_ok u1 m [cmp].
Proof.
  destruct (C18_summed_tie_gives_one_value rA u0 cmp [cmp] 0%nat [4%nat] 1 u0_ok) as (u' & m' & t & E & S & _).
  - repeat constructor; simpl; intuition congruence.
  - intros i [<-|[<-|[]]]; (split; [intros (t & [] & _)|eexists; split; reflexivity]).
  - exists m'. unfold u1. rewrite E. exact S.
Qed.
Example C18_summed_case :
  (exists m, sum_ok u1 m [cmp]) /\ u_fetch u1 = Some [10; 30] /\
  exists u', u_setFree u1 [51; 52] = TDone u' /\ u_fetch u' = Some [51; 52] /\
    map (fun c => map q_val (source_params c)) (u_comps u') = [[52; 20; 51; 20; 52]; [52; 20; 51; 20; 52]].
Proof. split; [apply u1_ok|]. split; [reflexivity|]. eexists. split; [reflexivity|]. split; reflexivity. Qed.

(** C18 is false of the code for a tieParameters call that throws because a parameter is tied
    already: the parameter visited before it is lost from the free parameters. *)
Theorem C18_summed_throwing_tie_loses_parameter_refuted :
  exists u m rest u' e, sum_ok u m rest /\ u_tie rA u [2; 0]%nat = TThrew e u' /\
    length (u_tied u') = length (u_tied u) /\ u_numFree u' <> u_numFree u.
Proof.
  destruct u1_ok as (m & S). exists u1, m, [cmp]. eexists _, _. split; [exact S|]. split; [reflexivity|]. split; [reflexivity|]. vm_compute. discriminate.
Qed.
Print Assumptions C18_summed_throwing_tie_loses_parameter_refuted.

(** C19. Without groups, getFreeDerivs into an empty vector returns one derivative per free
    parameter, in the order of getFreeParams: the sum of the components' derivatives.
    Missing: groups, for which the claim is false (below). *)
Theorem C19_summed_gradient_partial :
  forall u m rest fds, sum_ok u m rest -> u_tied u = [] ->
    Forall (fun fd => length fd = length (filter q_free (m_par m))) fds ->
    (forall e, In e (entries (joint_of u m)) -> exists i, e = Single 0 i) /\
    u_getFreeDerivs u fds [] = Some (map (fun e => match e with Single _ i => sum_deriv m fds i | Group _ => 0%R end) (entries (joint_of u m))) /\
    (forall ps, u_getFreeParams u [] = Some ps -> map Some ps = map (entry_param (joint_of u m)) (entries (joint_of u m))).
Proof.
  intros u m rest fds S HT F. split; [|split].
  - intros e He. unfold entries in He. simpl in He. rewrite HT in He. simpl in He. rewrite !app_nil_r in He.
    apply in_map_iff in He as (i & <- & _). eauto.
  - exact (sum_derivs_ok u m rest S HT fds F).
  - intros ps Hps. rewrite (joint_free u m rest (so_comps _ _ _ S)) in Hps. exact (params_are_entries _ (sum_index u m rest S) ps Hps).
Qed.
Print Assumptions C19_summed_gradient_partial.
Example C19_summed_case : sum_ok u0 cmp [cmp] /\ entries (joint_of u0 cmp) = [Single 0 0; Single 0 2; Single 0 4] /\
  u_getFreeDerivs u0 [[1; 2; 3]; [10; 20; 30]]%R [] = Some [0 + 1 + 10; 0 + 2 + 20; 0 + 3 + 30]%R.
Proof. split; [exact u0_ok|]. split; reflexivity. Qed.

(** C19 is false of the code for a group: the derivative returned for it is that of its last
    member only, not the sum over the members. *)
Theorem C19_summed_group_derivative_refuted :
  exists u m rest fds ds t, sum_ok u m rest /\ Forall (fun fd => length fd = length (filter q_free (m_par m))) fds /\
    u_tied u = [t] /\ q_free (t_par t) = true /\
    u_getFreeDerivs u fds [] = Some ds /\
    last ds 0%R <> fold_right Rplus 0%R (map (fun c => sum_deriv m fds (snd c)) (t_mem t)).
Proof.
  destruct u1_ok as (m & S). pose proof (so_comps _ _ _ S) as C. assert (m = hd m (u_comps u1)) as Em by (rewrite C; reflexivity). vm_compute in Em. rewrite Em in *. clear C Em.
  eexists u1, _, _, [[1; 2; 3]%R], _, _. split; [exact S|]. split; [repeat constructor|]. split; [reflexivity|]. split; [reflexivity|]. split; [reflexivity|].
  unfold sum_deriv. simpl. lra.
Qed.
Print Assumptions C19_summed_group_derivative_refuted.

(** C19 is false of the code when the vector passed in is not empty: its old contents are
    added to the result. *)
Theorem C19_summed_stale_output_refuted :
  exists u m rest fds d0, sum_ok u m rest /\ u_tied u = [] /\ Forall (fun fd => length fd = length (filter q_free (m_par m))) fds /\
    u_getFreeDerivs u fds d0 <> u_getFreeDerivs u fds [].
Proof.
  exists u0, cmp, [cmp], [[1; 2; 3]%R], [5]%R. split; [exact u0_ok|]. split; [reflexivity|]. split; [repeat constructor|].
  simpl. intros E. injection E. intros. lra.
Qed.
Print Assumptions C19_summed_stale_output_refuted.

(** C20. findIndex returns the position of the parameter among the free ones or -1, for every
    parameter in no group, and for members of groups when no group is fixed.  Missing: a
    parameter in a group while some group is fixed, for which it is false. *)
Theorem C20_summed_find_index_partial :
  forall u m rest i, sum_ok u m rest -> (in_some_group (joint_of u m) 0 i -> forall t, In t (u_tied u) -> q_free (t_par t) = true) ->
    (exists j e, u_findIndex u m i = Z.of_nat j /\ nth_error (entries (joint_of u m)) j = Some e /\ stands_for (joint_of u m) e 0 i) \/
    (u_findIndex u m i = -1 /\ forall e, In e (entries (joint_of u m)) -> ~ stands_for (joint_of u m) e 0 i).
Proof. intros u m rest i S H. rewrite sum_find. exact (findIndex_ok (joint_of u m) (sum_index u m rest S) 0 i H). Qed.
Print Assumptions C20_summed_find_index_partial.
Theorem C20_summed_fixed_group_refuted :
  exists u m rest i j, sum_ok u m rest /\ u_findIndex u m i = Z.of_nat j /\
    forall e, nth_error (entries (joint_of u m)) j = Some e -> ~ stands_for (joint_of u m) e 0 i.
Proof.
  destruct (C18_summed_tie_gives_one_value rA u0 cmp [cmp] 1%nat [3%nat] 2 u0_ok) as (u' & m' & t & E & S & _).
  - repeat constructor; simpl; intuition congruence.
  - intros i [<-|[<-|[]]]; (split; [intros (t & [] & _)|eexists; split; reflexivity]).
  - assert (m' = hd m' (u_comps u')) as Em by (rewrite (so_comps _ _ _ S); reflexivity).
    vm_compute in E. injection E as <-. simpl in Em. subst m'. eexists _, _, _, 1%nat, 3%nat. split; [exact S|]. split; [reflexivity|]. vm_compute. discriminate.
Qed.
Print Assumptions C20_summed_fixed_group_refuted.

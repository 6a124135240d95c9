From Coq Require Import Reals Lra Permutation.
From Verif Require Import Base SMap SrcModel SrcSpec SrcProofs TiedModel TiedSpec TiedProofs TiedDerivs SummedModel SummedSpec AccumProofs.
Local Open Scope Z_scope.

Lemma setParams_all_ok c qs : map q_name (source_params c) = map q_name qs -> length (m_par c) = length qs ->
  Forall (fun p => NoDup (map q_name (s_params (snd p)))) (m_src c) ->
  exists c', setParams sel_all c qs = Done c' /\ m_par c' = qs /\ source_params c' = qs /\
    Forall (fun p => NoDup (map q_name (s_params (snd p)))) (m_src c') /\
    map (fun p => (fst p, s_ids (snd p))) (m_src c') = map (fun p => (fst p, s_ids (snd p))) (m_src c).
Proof.
  intros E1 E2 F. destruct (set_params_all_ok (m_src c) qs F E1) as (l' & E & R1 & R2).
  unfold setParams, count_sel. rewrite filter_all, <- E2, Nat.eqb_refl, E. eexists. split; [reflexivity|]. simpl. split; auto. split; auto. split; auto.
  assert (forall l qs l', Forall (fun p : Z * source => NoDup (map q_name (s_params (snd p)))) l ->
     map q_name (flat_map (fun p => s_params (snd p)) l) = map q_name qs -> set_params_all sel_all l qs = (l', None) ->
     Forall (fun p : Z * source => NoDup (map q_name (s_params (snd p)))) l') as HH.
  { clear. induction l as [|[n s] l IH]; intros qs l' F E H; simpl in *; [injection H as <-; constructor|].
    inversion F; subst. simpl in *. unfold count_sel in H. rewrite filter_all in H.
    assert (length (s_params s) <= length qs)%nat as L.
    { apply (f_equal (@length Z)) in E. rewrite !map_length, app_length in E. lia. }
    assert (map q_name (s_params s) = map q_name (firstn (length (s_params s)) qs)) as E1.
    { apply (f_equal (firstn (length (s_params s)))) in E. rewrite !firstn_map in E.
      rewrite firstn_app, Nat.sub_diag, firstn_all in E. simpl in E. now rewrite app_nil_r in E. }
    pose proof (set_params_src_ok (s_params s) [] qs ltac:(auto) E1 L) as ES. simpl in ES. rewrite ES in H.
    destruct (set_params_all sel_all l (skipn (length (s_params s)) qs)) as [r e] eqn:Er. injection H as <- ->.
    constructor; [cbn [snd]; rewrite params_with_params; congruence|]. refine (IH _ _ H3 _ Er).
    apply (f_equal (skipn (length (s_params s)))) in E. rewrite !skipn_map in E.
    rewrite skipn_app, Nat.sub_diag, skipn_all in E. exact E. }
  eapply HH; eauto.
Qed.

Lemma sync_all_ok qs : forall cs, (forall c, In c cs -> map q_name (source_params c) = map q_name qs /\ length (m_par c) = length qs /\
    Forall (fun p => NoDup (map q_name (s_params (snd p)))) (m_src c)) ->
  exists cs', u_sync_all qs cs = TDone cs' /\
    Forall2 (fun c c' => m_par c' = qs /\ source_params c' = qs /\ Forall (fun p => NoDup (map q_name (s_params (snd p)))) (m_src c') /\
       map (fun p => (fst p, s_ids (snd p))) (m_src c') = map (fun p => (fst p, s_ids (snd p))) (m_src c)) cs cs'.
Proof.
  induction cs as [|c cs IH]; intros H; simpl; [exists []; auto|].
  destruct (H c (or_introl eq_refl)) as (H1 & H2 & H3). destruct (setParams_all_ok c qs H1 H2 H3) as (c' & E & R). rewrite E.
  destruct IH as (cs' & E' & R'); [intros; apply H; simpl; auto|]. rewrite E'. eexists. split; [reflexivity|]. constructor; auto.
Qed.

Lemma joint_free u m rest : u_comps u = m :: rest -> u_getFreeParams u [] = getFreeParams (joint_of u m).
Proof. intros E. unfold u_getFreeParams, getFreeParams. rewrite E. simpl. now rewrite app_nil_r. Qed.

Lemma same_kind_names a b : same_kind a b -> map q_name a = map q_name b.
Proof. intros H. apply map_nf_names. now apply same_kind_nf. Qed.

Lemma u_setFree_ok u m rest vs ps : sum_ok u m rest -> u_getFreeParams u [] = Some ps -> Forall2 in_bounds ps vs ->
  exists u' m' rest', u_setFree u vs = TDone u' /\ sum_ok u' m' rest' /\ u_fetch u' = Some vs /\
    length (u_comps u') = length (u_comps u) /\ map t_mem (u_tied u') = map t_mem (u_tied u) /\ u_idx u' = u_idx u /\
    (forall c, In c (u_comps u') -> m_par c = m_par m' /\ source_params c = m_par m') /\
    Forall2 (fun c c' => map (fun p => (fst p, s_ids (snd p))) (m_src c') = map (fun p => (fst p, s_ids (snd p))) (m_src c)) (u_comps u) (u_comps u') /\
    (forall t c i, In t (u_tied u') -> q_free (t_par t) = true -> In (c, i) (t_mem t) ->
       exists p, nth_error (m_par m') i = Some p /\ q_val p = q_val (t_par t)) /\
    (forall i p, nth_error (m_par m) i = Some p -> q_free p = false -> nth_error (m_par m') i = Some p) /\
    map skeleton (m_par m') = map skeleton (m_par m).
Proof.
  intros [C N I O M] Hg F. unfold u_getFreeParams in Hg. rewrite C in Hg. simpl in Hg. injection Hg as <-.
  change (map t_par (filter (fun t => q_free (t_par t)) (u_tied u))) with (tvals (u_tied u)) in F.
  pose proof (Forall2_len _ _ _ F) as HL. rewrite app_length in HL. apply Forall2_app_split in F as [F1 F2].
  unfold u_setFree. rewrite C.
  destruct (set_untied_ok (u_idx u) (m_par m) 0 vs ltac:(lia) F1) as (ps' & E1 & V1 & K1 & N1). rewrite E1.
  set (m1 := mk_model (m_src m) ps' (m_freeSrcs m)).
  set (n1 := length (untied (u_idx u) 0 (m_par m))) in *.
  assert (forall t c i, In t (u_tied u) -> In (c, i) (t_mem t) -> nth_error ps' i = nth_error (m_par m) i) as Hkeep.
  { intros t c i Ht Hi. destruct (M t c i Ht Hi) as (-> & p & Hp & _). rewrite Hp. apply N1; auto. unfold chosen. simpl.
    apply andb_false_iff. right. rewrite (proj2 (is_tied_spec (u_idx u) i)); auto. apply I. exists t. auto. }
  destruct (set_tied_ok (u_tied u) (fun _ => m1) (skipn n1 vs)) as (h & ts & E2 & K2 & V2 & M2 & K3 & O2 & G2); auto.
  { intros t c i Ht Hi Hf. destruct (M t c i Ht Hi) as (-> & p & Hp & Hfp & Hb). exists p. split.
    - unfold hslot. simpl. rewrite (Hkeep t 0 i Ht Hi). auto.
    - apply Hb. rewrite Hfp. auto. }
  rewrite E2. destruct (K2 0) as [Ks Kp]. simpl in Ks, Kp.
  assert (map q_name (m_par (h 0)) = map q_name (m_par m)) as En.
  { rewrite (same_kind_names _ _ Kp). exact (same_kind_names _ _ K1). }
  assert (length (m_par (h 0)) = length (m_par m)) as El.
  { rewrite (same_kind_length _ _ Kp). exact (same_kind_length _ _ K1). }
  set (qs := m_par (h 0)) in *.
  destruct (N m (or_introl eq_refl)) as (Nm1 & Nm2 & Nm3).
  destruct (setParams_all_ok (h 0) qs) as (m' & E3 & P1 & P2 & P3 & P4).
  { unfold source_params. rewrite Ks. change (map q_name (source_params m) = map q_name qs). now rewrite En. }
  { reflexivity. }
  { now rewrite Ks. }
  unfold u_sync. fold qs. rewrite E3, P1.
  destruct (sync_all_ok qs rest) as (rest' & E4 & R4).
  { intros c Hc. destruct (N c (or_intror Hc)) as (A1 & A2 & A3). rewrite En. split; auto. split; auto. congruence. }
  rewrite E4. exists (mk_sum (m' :: rest') ts (u_idx u)), m', rest'. split; [reflexivity|].
  assert (forall c, In c (m' :: rest') -> m_par c = qs /\ source_params c = qs /\ Forall (fun p => NoDup (map q_name (s_params (snd p)))) (m_src c)) as Hall.
  { intros c [<-|Hc]; auto. clear - R4 Hc. induction R4 as [|a b l l' H R IH]; simpl in Hc; [contradiction|]. destruct Hc as [<-|Hc]; auto.
    destruct H as (H1 & H2 & H3 & _). auto. }
  assert (forall i, nth_error qs i = nth_error (m_par m) i \/ True) by auto.
  assert (untied (u_idx u) 0 qs = untied (u_idx u) 0 ps') as Eu.
  { apply untied_ext; [rewrite El; symmetry; now apply same_kind_length|]. intros j p p' Hp Hp'. simpl.
    pose proof (same_kind_nth _ _ _ _ _ Kp Hp Hp') as Hsk. apply skel_free in Hsk as (Hf & _). unfold chosen. rewrite Hf. split; auto.
    intros Hc. apply andb_true_iff in Hc as [_ Hc]. apply negb_true_iff in Hc.
    assert (~ In (0, j) (flat_map t_mem (u_tied u))) as Hno.
    { intros Hi. apply in_flat_map in Hi as (t & Ht & Hi). assert (is_tied (u_idx u) j = true); [|congruence]. apply is_tied_spec, I. exists t; auto. }
    specialize (O2 0 j Hno). unfold hslot in O2. fold qs in O2. simpl in O2. congruence. }
  split; [|split; [|split; [|split; [|split; [|split; [|split; [|split; [|split]]]]]]]].
  - constructor; simpl; auto.
    + intros c Hc. destruct (Hall c Hc) as (A1 & A2 & A3). rewrite P1, A1, A2. auto.
    + intros i. rewrite I. unfold in_some_group. simpl. split; intros (t & Ht & Hi).
      * apply In_nth_error in Ht as (g & Hg). assert (nth_error (map t_mem ts) g = Some (t_mem t)) as Hg'.
        { rewrite M2. rewrite nth_error_map, Hg. reflexivity. }
        rewrite nth_error_map in Hg'. destruct (nth_error ts g) as [t'|] eqn:Eg; [|discriminate]. simpl in Hg'. injection Hg' as Hg'.
        exists t'. split; [eapply nth_error_In; eauto|congruence].
      * apply In_nth_error in Ht as (g & Hg). assert (nth_error (map t_mem (u_tied u)) g = Some (t_mem t)) as Hg'.
        { rewrite <- M2. rewrite nth_error_map, Hg. reflexivity. }
        rewrite nth_error_map in Hg'. destruct (nth_error (u_tied u) g) as [t'|] eqn:Eg; [|discriminate]. simpl in Hg'. injection Hg' as Hg'.
        exists t'. split; [eapply nth_error_In; eauto|congruence].
    + rewrite flat_map_concat_map, M2, <- flat_map_concat_map. auto.
    + intros t c i Ht Hi. apply In_nth_error in Ht as (g & Hg). assert (nth_error (map t_mem (u_tied u)) g = Some (t_mem t)) as Hg'.
      { rewrite <- M2. rewrite nth_error_map, Hg. reflexivity. }
      rewrite nth_error_map in Hg'. destruct (nth_error (u_tied u) g) as [t'|] eqn:Eg; [|discriminate]. simpl in Hg'. injection Hg' as Hg'.
      rewrite <- Hg' in Hi. destruct (M t' c i (nth_error_In _ _ Eg) Hi) as (-> & p & Hp & Hfp & Hb). split; auto.
      destruct (nth_error_len (m_par m) qs i p (eq_sym El) Hp) as (q & Hq). exists q. rewrite P1. split; auto.
      assert (skeleton q = skeleton p) as Hsk by (eapply same_kind_nth; [eapply same_kind_trans; [exact Kp|exact K1]|exact Hq|exact Hp]).
      assert (skeleton (t_par t) = skeleton (t_par t')) as Hsk2.
      { eapply same_kind_nth; [exact K3| |]; rewrite nth_error_map; [rewrite Hg|rewrite Eg]; reflexivity. }
      apply skel_free in Hsk as (S1 & S2 & S3 & _). apply skel_free in Hsk2 as (S4 & S5 & S6 & _).
      rewrite S1, S2, S3, S4, S5, S6. auto.
  - unfold u_fetch, u_getFreeParams. simpl. rewrite P1, Eu, map_app, V1.
    change (map t_par (filter (fun t => q_free (t_par t)) ts)) with (tvals ts). rewrite V2, firstn_skipn. reflexivity.
  - simpl. f_equal. now apply Forall2_len in R4.
  - exact M2.
  - reflexivity.
  - simpl. intros c Hc. destruct (Hall c Hc) as (A1 & A2 & _). rewrite P1. auto.
  - simpl. constructor; [now rewrite P4, Ks|]. clear - R4. induction R4; constructor; intuition.
  - simpl. intros t c i Ht Hf Hi. rewrite P1. apply In_nth_error in Ht as (g & Hg). specialize (G2 g t Hg). unfold free_group in G2. rewrite Hf in G2.
    assert (nth_error (map t_mem (u_tied u)) g = Some (t_mem t)) as Hg'.
    { rewrite <- M2. rewrite nth_error_map, Hg. reflexivity. }
    rewrite nth_error_map in Hg'. destruct (nth_error (u_tied u) g) as [t'|] eqn:Eg; [|discriminate]. simpl in Hg'. injection Hg' as Hg'.
    pose proof Hi as Hi'. rewrite <- Hg' in Hi'. destruct (M t' c i (nth_error_In _ _ Eg) Hi') as (-> & p & Hp & _).
    specialize (G2 0 i Hi). unfold hslot in G2. fold qs in G2. simpl in G2.
    rewrite (Hkeep t' 0 i (nth_error_In _ _ Eg) Hi'), Hp in G2. simpl in G2. eexists. split; [exact G2|reflexivity].
  - intros i p Hp Hf. rewrite P1.
    assert (nth_error ps' i = Some p) as Hp' by (apply N1; auto; unfold chosen; now rewrite Hf).
    destruct (in_dec mem_dec (0, i) (flat_map t_mem (u_tied u))) as [Hi|Hi].
    + apply in_flat_map in Hi as (t & Ht & Hi). apply In_nth_error in Ht as (g & Hg).
      assert (nth_error (map t_mem ts) g = Some (t_mem t)) as Hg'.
      { rewrite M2. rewrite nth_error_map, Hg. reflexivity. }
      rewrite nth_error_map in Hg'. destruct (nth_error ts g) as [t'|] eqn:Eg; [|discriminate]. simpl in Hg'. injection Hg' as Hg'.
      specialize (G2 g t' Eg). destruct (M t 0 i (nth_error_In _ _ Hg) Hi) as (_ & p2 & Hp2 & Hf2 & _).
      assert (skeleton (t_par t') = skeleton (t_par t)) as Hsk.
      { eapply same_kind_nth; [exact K3| |]; rewrite nth_error_map; [rewrite Eg|rewrite Hg]; reflexivity. }
      apply skel_free in Hsk as (S1 & _). unfold free_group in G2. rewrite S1, <- Hf2 in G2.
      assert (p2 = p) by congruence. subst p2. rewrite Hf in G2. destruct G2 as [_ G2]. rewrite <- Hg' in Hi. specialize (G2 0 i Hi).
      unfold hslot in G2. fold qs in G2. simpl in G2. congruence.
    + specialize (O2 0 i Hi). unfold hslot in O2. fold qs in O2. simpl in O2. congruence.
  - rewrite P1. eapply same_kind_trans; eauto.
Qed.

(** *** index lookup and derivatives *)
Lemma sum_index u m rest : sum_ok u m rest ->
  forall c tl, In (c, tl) (k_comps (joint_of u m)) -> forall i, In i tl <-> in_some_group (joint_of u m) c i.
Proof. intros S c tl [E|[]] i. injection E as <- <-. apply (so_index _ _ _ S). Qed.
Lemma sum_find u m i : u_findIndex u m i = findIndex (joint_of u m) 0 i.
Proof. unfold u_findIndex, findIndex. simpl. destruct (find_in (u_idx u) i 0 (m_par m) 0); reflexivity. Qed.

Section D.
Variables (u : summed) (m : model) (rest : list model) (S : sum_ok u m rest) (HT : u_tied u = []).
Definition nfree (i : nat) := length (filter q_free (firstn i (m_par m))).
Lemma idx_nil : u_idx u = [].
Proof.
  destruct (u_idx u) as [|i l] eqn:E; auto. destruct (proj1 (so_index _ _ _ S i)) as (t & Ht & _).
  - rewrite E. simpl; auto.
  - simpl in Ht. rewrite HT in Ht. contradiction.
Qed.
Lemma find_in_free target : forall rest pre j, m_par m = pre ++ rest -> (length pre <= target)%nat ->
  find_in [] target (length pre) rest j =
  if lfree (m_par m) target then inl (j + Z.of_nat (nfree target - nfree (length pre))) else inr (j + Z.of_nat (nfree (length (m_par m)) - nfree (length pre))).
Proof.
  assert (forall a p b, m_par m = a ++ p :: b -> nfree (length (a ++ [p])) = (nfree (length a) + (if q_free p then 1 else 0))%nat) as Hn.
  { intros a p b E. unfold nfree. rewrite E. rewrite len_mid. replace (Datatypes.S (length a)) with (length a + 1)%nat by lia.
    rewrite firstn_app_2. replace (firstn (length a) (a ++ p :: b)) with a by (rewrite <- (Nat.add_0_r (length a)), firstn_app_2; simpl; now rewrite app_nil_r).
    simpl. rewrite filter_app, app_length. simpl. destruct (q_free p); reflexivity. }
  assert (forall x y, (x <= y)%nat -> (nfree x <= nfree y)%nat) as Hmono.
  { intros x y Hxy. unfold nfree. rewrite <- (firstn_skipn x (firstn y (m_par m))). rewrite firstn_firstn, Nat.min_l by auto. rewrite filter_app, app_length. lia. }
  induction rest0 as [|p l IH]; intros pre j E Hl; simpl.
  - rewrite app_nil_r in E. rewrite <- E in *. unfold lfree. rewrite (proj2 (nth_error_None (m_par m) target)) by lia. f_equal. lia.
  - specialize (IH (pre ++ [p])). rewrite len_mid in IH. 
    pose proof (Hn pre p l E) as Hnp. rewrite len_mid in Hnp.
    assert (nfree (Datatypes.S (length pre)) <= nfree (length (m_par m)))%nat as Hend by (apply Hmono; rewrite E, app_length; simpl; lia).
    destruct (Nat.eqb_spec target (length pre)) as [->|Hneq].
    + assert (lfree (m_par m) (length pre) = q_free p) as -> by (rewrite E; apply lfree_mid).
      destruct (q_free p) eqn:Ef; simpl; [f_equal; lia|].
      clear IH. assert (forall l' pre' j', m_par m = pre' ++ l' -> (length pre < length pre')%nat -> find_in [] (length pre) (length pre') l' j' = inr (j' + Z.of_nat (nfree (length (m_par m)) - nfree (length pre')))) as HH.
      { induction l' as [|p' l' IH']; intros pre' j' E' Hlt; simpl.
        - rewrite E', app_nil_r. f_equal. lia.
        - specialize (IH' (pre' ++ [p'])). rewrite len_mid in IH'. pose proof (Hn pre' p' l' E') as Hnp'. rewrite len_mid in Hnp'.
          assert (nfree (Datatypes.S (length pre')) <= nfree (length (m_par m)))%nat as Hend' by (apply Hmono; rewrite E', app_length; simpl; lia).
          replace (length pre =? length pre')%nat with false by (symmetry; apply Nat.eqb_neq; lia).
          destruct (q_free p'); simpl; rewrite IH' by (try lia; rewrite <- app_mid; auto); f_equal; lia. }
      pose proof (HH l (pre ++ [p]) j) as H2. rewrite len_mid in H2. rewrite H2 by (try lia; rewrite <- app_mid; auto). f_equal. lia.
    + assert (nfree (Datatypes.S (length pre)) <= nfree target)%nat as Ht by (apply Hmono; lia).
      destruct (q_free p) eqn:Ef; simpl; rewrite IH by (try lia; rewrite <- app_mid; auto); destruct (lfree (m_par m) target); f_equal; lia.
Qed.
Lemma find_free i : u_findIndex u m i = if lfree (m_par m) i then Z.of_nat (nfree i) else -1.
Proof.
  unfold u_findIndex. rewrite HT, idx_nil. pose proof (find_in_free i (m_par m) [] 0 eq_refl ltac:(simpl; lia)) as E. simpl in E. rewrite E.
  destruct (lfree (m_par m) i); [|reflexivity]. unfold nfree at 2. simpl. rewrite Nat.sub_0_r. reflexivity.
Qed.
Definition ident (n : nat) : smap nat := map (fun j => (Z.of_nat j, j)) (seq 0 n).
Lemma minsert_end n : minsert (Z.of_nat n) n (ident n) = ident (Datatypes.S n).
Proof.
  unfold ident. rewrite seq_S. rewrite map_app. simpl.
  assert (forall l, (forall j, In j l -> (j < n)%nat) -> minsert (Z.of_nat n) n (map (fun j => (Z.of_nat j, j)) l) = map (fun j => (Z.of_nat j, j)) l ++ [(Z.of_nat n, n)]) as HH.
  { induction l as [|j l IH]; intros Hl; simpl; auto. pose proof (Hl j (or_introl eq_refl)).
    replace (Z.of_nat n <? Z.of_nat j) with false by (symmetry; apply Z.ltb_ge; lia).
    replace (Z.of_nat n =? Z.of_nat j) with false by (symmetry; apply Z.eqb_neq; lia). f_equal. apply IH. intros; apply Hl; simpl; auto. }
  apply HH. intros j Hj. apply in_seq in Hj. lia.
Qed.
Lemma free_index_ok : forall l pre, m_par m = pre ++ l ->
  free_index u m (length pre) l (nfree (length pre)) (ident (nfree (length pre))) = ident (nfree (length (m_par m))).
Proof.
  induction l as [|p l IH]; intros pre E; simpl.
  - rewrite E, app_nil_r. reflexivity.
  - specialize (IH (pre ++ [p])). rewrite len_mid in IH. rewrite find_free.
    assert (lfree (m_par m) (length pre) = q_free p) as -> by (rewrite E; apply lfree_mid).
    assert (nfree (Datatypes.S (length pre)) = (nfree (length pre) + (if q_free p then 1 else 0))%nat) as Hn.
    { unfold nfree. rewrite E. replace (Datatypes.S (length pre)) with (length pre + 1)%nat by lia.
      rewrite firstn_app_2. replace (firstn (length pre) (pre ++ p :: l)) with pre by (rewrite <- (Nat.add_0_r (length pre)), firstn_app_2; simpl; now rewrite app_nil_r).
      simpl. rewrite filter_app, app_length. simpl. destruct (q_free p); reflexivity. }
    rewrite Hn in IH. destruct (q_free p); simpl.
    + replace (-1 <? Z.of_nat (nfree (length pre))) with true by (symmetry; apply Z.ltb_lt; lia).
      rewrite Nat.add_1_r in IH. rewrite minsert_end. apply IH. now rewrite <- app_mid.
    + rewrite Nat.add_0_r in IH. apply IH. now rewrite <- app_mid.
Qed.
Lemma add_index_ident fd : forall l pre suf, (length fd = pre + length l)%nat ->
  forall ds0, length ds0 = pre -> suf = skipn pre fd ->
  add_index (map (fun j => (Z.of_nat j, j)) (seq pre (length l))) fd (ds0 ++ l) = Some (ds0 ++ map (fun p => (fst p + snd p)%R) (combine l suf)).
Proof.
  induction l as [|d l IH]; intros pre suf HL ds0 H0 Hs; simpl; auto.
  rewrite Nat2Z.id. rewrite nth_error_app2 by lia. rewrite H0, Nat.sub_diag. simpl.
  destruct suf as [|x suf].
  { apply (f_equal (@length R)) in Hs. rewrite skipn_length in Hs. simpl in *. lia. }
  assert (nth_error fd pre = Some x) as Hx.
  { rewrite <- (firstn_skipn pre fd), nth_error_app2; rewrite firstn_length, Nat.min_l; simpl in *; try lia. rewrite Nat.sub_diag, <- Hs. reflexivity. }
  rewrite Hx. assert (upd (ds0 ++ d :: l) pre (d + x)%R = (ds0 ++ [(d + x)%R]) ++ l) as ->.
  { rewrite <- H0. clear. induction ds0; simpl; auto. now rewrite IHds0. }
  rewrite (IH (Datatypes.S pre) suf).
  - rewrite <- app_assoc. reflexivity.
  - simpl in *. lia.
  - rewrite len_mid. lia.
  - change (Datatypes.S pre) with (1 + pre)%nat. rewrite <- skipn_skipn, <- Hs. reflexivity.
Qed.
Lemma add_all_ident n : forall fds ds, length ds = n -> Forall (fun fd => length fd = n) fds ->
  add_all (ident n) fds ds = Some (map (fun j => (nth j ds 0 + fold_right Rplus 0 (map (fun fd => nth j fd 0) fds))%R) (seq 0 n)).
Proof.
  induction fds as [|fd fds IH]; intros ds HL F; simpl.
  - f_equal. apply (nth_ext _ _ 0%R 0%R); [rewrite map_length, seq_length; auto|]. intros i Hi.
    rewrite (nth_indep (map _ _) 0%R ((fun j => (nth j ds 0 + 0)%R) 0%nat)) by (rewrite map_length, seq_length; lia).
    rewrite map_nth with (f := fun j => (nth j ds 0 + 0)%R). rewrite seq_nth by lia. simpl. lra.
  - inversion F; subst. unfold ident at 1.
    pose proof (add_index_ident fd ds 0 fd ltac:(simpl; lia) [] eq_refl eq_refl) as E. simpl in E. rewrite E.
    assert (length (map (fun p => (fst p + snd p)%R) (combine ds fd)) = length ds) as HL2 by (rewrite map_length, combine_length; lia).
    rewrite IH; auto. f_equal. apply map_ext_in. intros j Hj. apply in_seq in Hj.
    rewrite (nth_indep (map _ (combine ds fd)) 0%R ((fun p => (fst p + snd p)%R) (0%R, 0%R))) by lia.
    rewrite (map_nth (fun p => (fst p + snd p)%R)). rewrite combine_nth by lia. simpl. lra.
Qed.
Lemma lidx_free : forall l pre, m_par m = pre ++ l ->
  map nfree (lidx [] (m_par m) (length pre) (length l)) = seq (nfree (length pre)) (nfree (length (m_par m)) - nfree (length pre)).
Proof.
  induction l as [|p l IH]; intros pre E; simpl.
  - rewrite E, app_nil_r, Nat.sub_diag. reflexivity.
  - specialize (IH (pre ++ [p])). rewrite len_mid in IH. unfold lidx in *. simpl.
    assert (lfree (m_par m) (length pre) = q_free p) as -> by (rewrite E; apply lfree_mid).
    assert (nfree (Datatypes.S (length pre)) = (nfree (length pre) + (if q_free p then 1 else 0))%nat) as Hn.
    { unfold nfree. rewrite E. replace (Datatypes.S (length pre)) with (length pre + 1)%nat by lia.
      rewrite firstn_app_2. replace (firstn (length pre) (pre ++ p :: l)) with pre by (rewrite <- (Nat.add_0_r (length pre)), firstn_app_2; simpl; now rewrite app_nil_r).
      simpl. rewrite filter_app, app_length. simpl. destruct (q_free p); reflexivity. }
    assert (nfree (Datatypes.S (length pre)) <= nfree (length (m_par m)))%nat as Hend.
    { unfold nfree. rewrite firstn_all. rewrite <- (firstn_skipn (Datatypes.S (length pre)) (m_par m)) at 2. rewrite filter_app, app_length. lia. }
    rewrite Hn in *. destruct (q_free p); simpl.
    + replace (nfree (length (m_par m)) - nfree (length pre))%nat with (Datatypes.S (nfree (length (m_par m)) - (nfree (length pre) + 1)))%nat by lia.
      simpl. f_equal. rewrite Nat.add_1_r in IH. rewrite Nat.add_1_r. apply IH. now rewrite <- app_mid.
    + rewrite Nat.add_0_r in *. apply IH. now rewrite <- app_mid.
Qed.
Lemma sum_derivs_ok fds : Forall (fun fd => length fd = length (filter q_free (m_par m))) fds ->
  u_getFreeDerivs u fds [] = Some (map (fun e => match e with Single _ i => sum_deriv m fds i | Group _ => 0%R end) (entries (joint_of u m))).
Proof.
  intros F. unfold u_getFreeDerivs. rewrite (so_comps _ _ _ S).
  pose proof (free_index_ok (m_par m) [] eq_refl) as E. simpl in E. unfold nfree at 1 2 in E. simpl in E. change (ident 0) with (@nil (Z * nat)) in E. rewrite E.
  set (n := nfree (length (m_par m))).
  assert (n = length (filter q_free (m_par m))) as En by (unfold n, nfree; now rewrite firstn_all).
  rewrite add_all_ident.
  - f_equal. rewrite (entries_eq (joint_of u m) (sum_index u m rest S)). unfold fgroups, singles. simpl. rewrite HT, idx_nil. simpl. rewrite !app_nil_r, map_map.
    pose proof (lidx_free (m_par m) [] eq_refl) as El. simpl in El. unfold nfree at 2 4 in El. simpl in El. rewrite Nat.sub_0_r in El. fold n in El.
    rewrite <- El, map_map. apply map_ext. intros j. unfold sum_deriv, nfree. unfold vec_resize. simpl. rewrite firstn_nil.
    rewrite Nat.sub_0_r. simpl.
    assert (forall a b, nth a (repeat 0%R b) 0%R = 0%R) as Hr by (intros a b; revert a; induction b; intros [|a]; simpl; auto).
    rewrite Hr. lra.
  - rewrite vec_resize_length. unfold ident. now rewrite map_length, seq_length.
  - rewrite En. auto.
Qed.
End D.

(** *** tying *)
Definition utie_inv (m0 : model) (dflt : param) (n : Z) (vis : list nat) (m : model) (t : tied) : Prop :=
  m_src m = m_src m0 /\ map q_name (m_par m) = map q_name (m_par m0) /\ length (m_par m) = length (m_par m0) /\
  t_mem t = map (fun i => (0, i)) vis /\
  (match vis with [] => True | i :: _ => nth_error (m_par m0) i = Some (t_par t) end) /\
  (vis <> [] -> q_name (t_par t) = n) /\
  (forall i, In i vis -> nth_error (m_par m) i = Some (t_par t)) /\
  (forall i, ~ In i vis -> nth_error (m_par m) i = nth_error (m_par m0) i).

Lemma names_upd ps i p q : nth_error ps i = Some p -> q_name q = q_name p -> map q_name (upd ps i q) = map q_name ps.
Proof. revert i. induction ps as [|x ps IH]; intros [|i] H E; simpl in *; try discriminate; [congruence|]. f_equal. eauto. Qed.

Lemma u_tie_loop_ok m0 dflt n : forall pars vis m t idx, utie_inv m0 dflt n vis m t -> NoDup (vis ++ pars) ->
  (forall i, In i pars -> ~ In i idx /\ exists p, nth_error (m_par m0) i = Some p /\ q_name p = n) ->
  exists m' t', u_tie_loop m t idx pars = TDone (m', t', rev pars ++ idx) /\ utie_inv m0 dflt n (vis ++ pars) m' t'.
Proof.
  induction pars as [|i pars IH]; intros vis m t idx I ND H; simpl.
  - exists m, t. rewrite app_nil_r. auto.
  - destruct I as (I1 & I2 & I3 & I4 & I5 & I6 & I7 & I8).
    destruct (H i (or_introl eq_refl)) as (Hi & p & Hp & Hpn).
    assert (~ In i vis) as Hv. { apply NoDup_remove_2 in ND. rewrite in_app_iff in ND. tauto. }
    assert (nth_error (m_par m) i = Some p) as Hp' by (rewrite I8; auto).
    assert (has_member t 0 i = false) as Hm.
    { destruct (has_member t 0 i) eqn:E; auto. apply has_member_spec in E. rewrite I4 in E. apply in_map_iff in E as (x & Ex & Hx). congruence. }
    set (t1 := match t_mem t with [] => mk_tied p (t_mem t) | _ => t end).
    assert (addParam (fun _ => m) t 0 i = TDone (hset (fun _ => m) 0 (put_par m i (t_par t1)), mk_tied (t_par t1) (t_mem t ++ [(0, i)]))) as ->.
    { unfold addParam, t1. rewrite Hp'. destruct (t_mem t) eqn:Et; simpl; [reflexivity|]. rewrite Hm. now rewrite Et. }
    rewrite hset_eq. destruct (is_tied idx i) eqn:Eti; [apply is_tied_spec in Eti; tauto|].
    assert (q_name (t_par t1) = n) as Hn1.
    { unfold t1. rewrite I4. destruct vis; simpl; auto. apply I6. discriminate. }
    destruct (IH (vis ++ [i]) (put_par m i (t_par t1)) (mk_tied (t_par t1) (t_mem t ++ [(0, i)])) (i :: idx)) as (m' & t' & E & I').
    + unfold utie_inv. simpl. split; auto. split; [rewrite (names_upd _ _ p); auto; congruence|]. split; [rewrite upd_length; auto|].
      split; [rewrite I4, map_app; reflexivity|]. split.
      { unfold t1. rewrite I4. destruct vis; simpl; auto. }
      split; [auto|]. split.
      { intros j Hj. apply in_app_iff in Hj as [Hj|[->|[]]].
        - rewrite nth_error_upd_neq by congruence. rewrite I7 by auto. unfold t1. rewrite I4. destruct vis; [contradiction|reflexivity].
        - rewrite nth_error_upd_eq; auto. apply nth_error_Some. congruence. }
      { intros j Hj. rewrite in_app_iff in Hj. simpl in Hj. rewrite nth_error_upd_neq by intuition. apply I8. tauto. }
    + now rewrite <- app_assoc.
    + intros j Hj. destruct (H j (or_intror Hj)) as (H1 & H2). split; auto. simpl. intros [->|H3]; auto.
      apply NoDup_app_r in ND. inversion ND; auto.
    + rewrite E. exists m', t'. split; [now rewrite <- app_assoc|]. now rewrite <- app_assoc in I'.
Qed.

Lemma u_tie_ok dflt u m rest pars n : sum_ok u m rest -> pars <> [] -> NoDup pars ->
  (forall i, In i pars -> ~ In i (u_idx u) /\ exists p, nth_error (m_par m) i = Some p /\ q_name p = n) ->
  exists u' m' t, u_tie dflt u pars = TDone u' /\ sum_ok u' m' rest /\ u_tied u' = u_tied u ++ [t] /\
    t_mem t = map (fun i => (0, i)) pars /\
    (forall i, In i pars -> nth_error (m_par m') i = nth_error (m_par m) (hd 0%nat pars)) /\
    (forall i, ~ In i pars -> nth_error (m_par m') i = nth_error (m_par m) i) /\ m_src m' = m_src m.
Proof.
  intros [C N I O M] Hne ND H. unfold u_tie. rewrite C.
  destruct (u_tie_loop_ok m dflt n pars [] m (mk_tied dflt []) (u_idx u)) as (m' & t & E & I1 & I2 & I3 & I4 & I5 & I6 & I7 & I8); auto.
  { unfold utie_inv. simpl. repeat split; auto; tauto. }
  rewrite E. simpl in *. eexists _, m', t. split; [reflexivity|].
  assert (forall i, In (0, i) (t_mem t) <-> In i pars) as Hmem.
  { intros i. rewrite I4, in_map_iff. split; [intros (x & Ex & Hx); congruence|eauto]. }
  assert (forall t' c i, In t' (u_tied u) -> In (c, i) (t_mem t') -> ~ In i pars) as Hold.
  { intros t' c i Ht Hi Hp. destruct (M t' c i Ht Hi) as (-> & _). destruct (H i Hp) as [Hn _]. apply Hn. apply I. exists t'; auto. }
  split; [|split; [reflexivity|split; [exact I4|split; [|split; [exact I8|exact I1]]]]].
  - constructor; simpl; auto.
    + intros c [<-|Hc].
      * destruct (N m (or_introl eq_refl)) as (A1 & A2 & A3). unfold source_params. rewrite I1. fold (source_params m). rewrite I2. auto.
      * destruct (N c (or_intror Hc)) as (A1 & A2 & A3). rewrite I2, I3. auto.
    + intros i. rewrite in_app_iff, <- in_rev, I. unfold in_some_group. simpl. split.
      * intros [Hi|(t' & Ht & Hi)]; [exists t; rewrite in_app_iff; simpl; split; auto; now apply Hmem|exists t'; rewrite in_app_iff; auto].
      * intros (t' & Ht & Hi). apply in_app_iff in Ht as [Ht|[<-|[]]]; [right; eauto|left; now apply Hmem].
    + rewrite flat_map_app. simpl. rewrite app_nil_r. apply NoDup_app; auto.
      * rewrite I4. apply FinFun.Injective_map_NoDup; auto. intros a b Eab. congruence.
      * intros [c i] H1 H2. apply in_flat_map in H1 as (t' & Ht & Hi). rewrite I4 in H2. apply in_map_iff in H2 as (x & Ex & Hx).
        injection Ex as <- <-. eapply Hold; eauto.
    + intros t' c i Ht Hi. apply in_app_iff in Ht as [Ht|[<-|[]]].
      * rewrite I8 by (eapply Hold; eauto). auto.
      * rewrite I4 in Hi. apply in_map_iff in Hi as (x & Ex & Hx). injection Ex as <- <-. split; auto. exists (t_par t). rewrite I7 by auto. auto.
  - intros i Hi. rewrite I7 by auto. destruct pars; [contradiction|]. auto.
Qed.

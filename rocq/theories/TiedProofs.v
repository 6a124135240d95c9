From Coq Require Import Reals Lra Permutation.
From Verif Require Import Base SMap SrcModel SrcSpec SrcProofs TiedModel TiedSpec AccumProofs.
Local Open Scope Z_scope.

Lemma skipn_skipn {A} (a b : nat) (l : list A) : skipn a (skipn b l) = skipn (a + b) l.
Proof. revert l. induction b as [|b IH]; intros l; [now rewrite Nat.add_0_r|]. rewrite Nat.add_succ_r. destruct l; simpl; [now rewrite skipn_nil|auto]. Qed.

Definition nf (p : param) := (q_name p, q_free p).
Definition pick (q p : param) : param := if q_free q then q else p.
Fixpoint picks (qs ps : list param) : list param :=
  match qs, ps with q :: qs', p :: ps' => pick q p :: picks qs' ps' | _, _ => [] end.

Lemma picks_app a b c d : length a = length c -> picks (a ++ b) (c ++ d) = picks a c ++ picks b d.
Proof. revert c. induction a as [|x a IH]; intros [|y c] H; simpl in *; try discriminate; auto. f_equal. apply IH. lia. Qed.
Lemma picks_nf qs ps : map nf qs = map nf ps -> map nf (picks qs ps) = map nf ps.
Proof.
  revert ps. induction qs as [|q qs IH]; intros [|p ps] H; simpl in *; try discriminate; auto.
  injection H as H1 H2 H3. rewrite IH by auto. f_equal. unfold pick, nf. destruct (q_free q) eqn:E; congruence.
Qed.
Lemma picks_length qs ps : length qs = length ps -> length (picks qs ps) = length ps.
Proof. revert ps. induction qs as [|q qs IH]; intros [|p ps] H; simpl in *; try discriminate; auto. Qed.
Lemma picks_nth qs ps i q p : nth_error qs i = Some q -> nth_error ps i = Some p -> nth_error (picks qs ps) i = Some (pick q p).
Proof.
  revert ps i. induction qs as [|q' qs IH]; intros [|p' ps] [|i] H1 H2; simpl in *; try discriminate.
  - congruence.
  - auto.
Qed.
Lemma map_nf_names a b : map nf a = map nf b -> map q_name a = map q_name b.
Proof. intros H. apply (f_equal (map fst)) in H. now rewrite !map_map in H. Qed.
Lemma nf_filter_length a b : map nf a = map nf b -> length (filter q_free a) = length (filter q_free b).
Proof.
  revert b. induction a as [|x a IH]; intros [|y b] H; simpl in *; try discriminate; auto.
  injection H as H1 H2 H3. rewrite H2. specialize (IH _ H3). destruct (q_free y); simpl; lia.
Qed.

Lemma set_params_src_free : forall ps qs pre rest, map nf qs = map nf ps -> NoDup (map q_name (pre ++ ps)) ->
  set_params_src (pre ++ ps) (filter q_free qs ++ rest) (length (filter q_free ps)) = (pre ++ picks qs ps, None).
Proof.
  induction ps as [|p ps IH]; intros [|q qs] pre rest E ND; simpl in E; try discriminate; [reflexivity|].
  injection E as E1 E2 E3. simpl. unfold pick at 1. rewrite E2. destruct (q_free p) eqn:Ef; simpl.
  - rewrite set_named_head; [|rewrite E1; rewrite map_app in ND; simpl in ND; apply NoDup_remove_2 in ND; rewrite in_app_iff in ND; tauto|auto].
    replace (pre ++ q :: ps) with ((pre ++ [q]) ++ ps) by (rewrite <- app_assoc; reflexivity).
    rewrite IH; auto; [rewrite <- app_assoc; reflexivity|]. rewrite <- app_assoc. simpl. rewrite map_app in *. simpl in *. now rewrite E1.
  - replace (pre ++ p :: ps) with ((pre ++ [p]) ++ ps) by (rewrite <- app_assoc; reflexivity).
    rewrite IH; auto; [rewrite <- app_assoc; reflexivity|]. rewrite <- app_assoc. exact ND.
Qed.
Lemma set_params_all_free : forall l qs, map nf qs = map nf (flat_map (fun p => s_params (snd p)) l) ->
  Forall (fun p : Z * source => NoDup (map q_name (s_params (snd p)))) l ->
  exists l', set_params_all sel_free l (filter q_free qs) = (l', None) /\
    flat_map (fun p => s_params (snd p)) l' = picks qs (flat_map (fun p => s_params (snd p)) l) /\
    map (fun p => (fst p, s_ids (snd p))) l' = map (fun p => (fst p, s_ids (snd p))) l /\
    Forall (fun p : Z * source => NoDup (map q_name (s_params (snd p)))) l'.
Proof.
  induction l as [|[n s] l IH]; intros qs E F; simpl in *.
  - destruct qs; [|discriminate]. exists []. auto.
  - inversion F; subst. simpl in *. set (k := length (s_params s)) in *.
    rewrite map_app in E.
    assert (map nf (firstn k qs) = map nf (s_params s)) as E1.
    { apply (f_equal (firstn k)) in E. rewrite firstn_map in E. rewrite firstn_app in E.
      replace (k - length (map nf (s_params s)))%nat with 0%nat in E by (rewrite map_length; unfold k; lia).
      simpl in E. rewrite app_nil_r in E. rewrite E. apply firstn_all2. rewrite map_length. unfold k; lia. }
    assert (map nf (skipn k qs) = map nf (flat_map (fun p => s_params (snd p)) l)) as E2.
    { apply (f_equal (skipn k)) in E. rewrite skipn_map in E. rewrite skipn_app in E.
      replace (k - length (map nf (s_params s)))%nat with 0%nat in E by (rewrite map_length; unfold k; lia).
      rewrite E. rewrite skipn_all2; [reflexivity|]. rewrite map_length. unfold k; lia. }
    assert (length (firstn k qs) = length (s_params s)) as EL.
    { apply (f_equal (@length _)) in E1. now rewrite !map_length in E1. }
    rewrite <- (firstn_skipn k qs). rewrite filter_app.
    unfold count_sel. change (filter sel_free (s_params s)) with (filter q_free (s_params s)).
    pose proof (set_params_src_free (s_params s) (firstn k qs) [] (filter q_free (skipn k qs)) E1 ltac:(auto)) as ES.
    simpl in ES. rewrite ES.
    rewrite <- (nf_filter_length _ _ E1). rewrite skipn_app, skipn_all, Nat.sub_diag. simpl.
    destruct (IH _ E2 H2) as (l' & El & R1 & R2 & R3). rewrite El. eexists. split; [reflexivity|].
    cbn [flat_map map fst snd]. rewrite params_with_params, ids_with_params, R1, R2. split; [|split; auto].
    + now rewrite picks_app.
    + constructor; auto. cbn [snd]. rewrite params_with_params. erewrite map_nf_names; [|apply picks_nf; exact E1]. auto.
Qed.

Lemma sync_one m : aligned m ->
  exists m', setParams sel_free m (filter q_free (m_par m)) = Done m' /\
    m_par m' = picks (m_par m) (source_params m) /\ m_par m' = source_params m' /\ aligned m' /\
    map (fun p => (fst p, s_ids (snd p))) (m_src m') = map (fun p => (fst p, s_ids (snd p))) (m_src m).
Proof.
  intros [A1 A2]. unfold setParams, count_sel. change (filter sel_free (m_par m)) with (filter q_free (m_par m)).
  rewrite Nat.eqb_refl.
  destruct (set_params_all_free (m_src m) (m_par m) A1 A2) as (l' & E & R1 & R2 & R3). rewrite E.
  eexists. split; [reflexivity|]. simpl. split; auto. split; [reflexivity|]. split; auto. split; simpl; auto.
Qed.

(** untied parameters *)
Lemma is_tied_spec tl i : is_tied tl i = true <-> In i tl.
Proof.
  unfold is_tied. rewrite existsb_exists. split.
  - intros (x & H & E). apply Nat.eqb_eq in E. now subst.
  - intros H. exists i. split; auto. apply Nat.eqb_refl.
Qed.
Lemma mem_eqb_spec a b : mem_eqb a b = true <-> a = b.
Proof.
  destruct a, b. unfold mem_eqb. simpl. rewrite andb_true_iff, Z.eqb_eq, Nat.eqb_eq. split; [intros [-> ->]; auto|]. intros E; injection E; auto.
Qed.
Lemma has_member_spec t c i : has_member t c i = true <-> In (c, i) (t_mem t).
Proof.
  unfold has_member. rewrite existsb_exists. split.
  - intros (x & H & E). apply mem_eqb_spec in E. now subst.
  - intros H. exists (c, i). split; auto. now apply mem_eqb_spec.
Qed.
Definition chosen (tl : list nat) (i : nat) (p : param) : bool := q_free p && negb (is_tied tl i).
Lemma untied_ext tl : forall ps ps' i, length ps = length ps' ->
  (forall j p p', nth_error ps j = Some p -> nth_error ps' j = Some p' ->
     chosen tl (i + j) p = chosen tl (i + j) p' /\ (chosen tl (i + j) p = true -> p = p')) ->
  untied tl i ps = untied tl i ps'.
Proof.
  induction ps as [|p ps IH]; intros [|p' ps'] i HL H; simpl in *; try discriminate; auto.
  destruct (H 0%nat p p' eq_refl eq_refl) as [E1 E2]. rewrite Nat.add_0_r in *. unfold chosen in *.
  rewrite (IH ps' (S i)).
  - rewrite <- E1. destruct (q_free p && negb (is_tied tl i)); auto. now rewrite (E2 eq_refl).
  - lia.
  - intros j q q' H1 H2. replace (S i + j)%nat with (i + S j)%nat by lia. apply H; auto.
Qed.

Definition same_kind (ps ps' : list param) : Prop := map skeleton ps = map skeleton ps'.
Lemma same_kind_nf a b : same_kind a b -> map nf a = map nf b.
Proof. intros H. apply (f_equal (map (fun s : Z * Z * Z * Z * bool => let '(n, _, _, _, f) := s in (n, f)))) in H. now rewrite !map_map in H. Qed.
Lemma same_kind_length a b : same_kind a b -> length a = length b.
Proof. intros H. apply (f_equal (@length _)) in H. now rewrite !map_length in H. Qed.
Lemma same_kind_nth a b i p q : same_kind a b -> nth_error a i = Some p -> nth_error b i = Some q -> skeleton p = skeleton q.
Proof.
  intros H Ha Hb. apply (f_equal (fun l => nth_error l i)) in H. rewrite !nth_error_map, Ha, Hb in H. simpl in H. congruence.
Qed.
Lemma same_kind_refl a : same_kind a a. Proof. reflexivity. Qed.
Lemma same_kind_trans a b c : same_kind a b -> same_kind b c -> same_kind a c. Proof. unfold same_kind. congruence. Qed.
Lemma same_kind_upd ps i p q : nth_error ps i = Some p -> skeleton q = skeleton p -> same_kind (upd ps i q) ps.
Proof.
  unfold same_kind. revert i. induction ps as [|x ps IH]; intros [|i] E H; simpl in *; try discriminate.
  - injection E as ->. now rewrite H.
  - f_equal. auto.
Qed.

Lemma set_untied_ok tl : forall ps i vs, (length (untied tl i ps) <= length vs)%nat ->
  Forall2 in_bounds (untied tl i ps) (firstn (length (untied tl i ps)) vs) ->
  exists ps', set_untied tl i ps vs = (ps', TDone (skipn (length (untied tl i ps)) vs)) /\
    map q_val (untied tl i ps') = firstn (length (untied tl i ps)) vs /\
    same_kind ps' ps /\
    (forall j p, nth_error ps j = Some p -> chosen tl (i + j) p = false -> nth_error ps' j = Some p).
Proof.
  induction ps as [|p ps IH]; intros i vs HL F; simpl in *.
  - exists []. repeat split; auto.
  - unfold chosen. destruct (q_free p && negb (is_tied tl i)) eqn:Ec; simpl in *.
    + destruct vs as [|v vs]; simpl in *; [lia|]. inversion F; subst.
      unfold par_set. replace ((q_lo p <=? v) && (v <=? q_hi p)) with true by (unfold in_bounds in *; symmetry; apply andb_true_iff; lia).
      destruct (IH (S i) vs ltac:(lia) ltac:(auto)) as (ps' & E & R1 & R2 & R3). rewrite E.
      eexists. split; [reflexivity|]. simpl. rewrite Ec. simpl. split; [congruence|]. split.
      * unfold same_kind in *. simpl. now rewrite R2.
      * intros [|j] q Hq Hc; simpl in *.
        -- injection Hq as <-. rewrite Nat.add_0_r in Hc. congruence.
        -- apply R3; auto. unfold chosen. now rewrite <- Nat.add_succ_r.
    + destruct (IH (S i) vs HL F) as (ps' & E & R1 & R2 & R3). rewrite E.
      eexists. split; [reflexivity|]. simpl. rewrite Ec. split; [congruence|]. split.
      * unfold same_kind in *. simpl. now rewrite R2.
      * intros [|j] q Hq Hc; simpl in *; auto. apply R3; auto. unfold chosen. now rewrite <- Nat.add_succ_r.
Qed.

Definition mem_dec (a b : Z * nat) : {a = b} + {a <> b}.
Proof. decide equality; [apply Nat.eq_dec|apply Z.eq_dec]. Defined.
(** Heaps that differ only in parameter values. *)
Definition heap_kind (h h' : heap) : Prop := forall c, m_src (h c) = m_src (h' c) /\ same_kind (m_par (h c)) (m_par (h' c)).
Lemma heap_kind_refl h : heap_kind h h. Proof. split; reflexivity. Qed.
Lemma heap_kind_trans a b c : heap_kind a b -> heap_kind b c -> heap_kind a c.
Proof. intros H1 H2 x. destruct (H1 x), (H2 x). split; [congruence|eapply same_kind_trans; eauto]. Qed.
Lemma hset_eq h c m : hset h c m c = m. Proof. unfold hset. now rewrite Z.eqb_refl. Qed.
Lemma hset_neq h c m x : x <> c -> hset h c m x = h x.
Proof. unfold hset. intros H. destruct (Z.eqb_spec x c); [contradiction|auto]. Qed.
Definition hslot (h : heap) c i := nth_error (m_par (h c)) i.
Definition uval (h : heap) (comps : smap (list nat)) : list param := flat_map (fun p => untied (snd p) 0 (m_par (h (fst p)))) comps.

Lemma uval_ext h h' comps : (forall c tl, In (c, tl) comps -> m_par (h c) = m_par (h' c)) -> uval h comps = uval h' comps.
Proof.
  intros H. unfold uval. induction comps as [|[c tl] l IH]; simpl; auto. rewrite (H c tl) by (simpl; auto). f_equal. apply IH.
  intros; apply (H c0 tl0); simpl; auto.
Qed.
Lemma set_comps_ok : forall comps h vs, sorted comps -> (length (uval h comps) <= length vs)%nat ->
  Forall2 in_bounds (uval h comps) (firstn (length (uval h comps)) vs) ->
  exists h', set_comps h comps vs = (h', TDone (skipn (length (uval h comps)) vs)) /\
    map q_val (uval h' comps) = firstn (length (uval h comps)) vs /\
    heap_kind h' h /\
    (forall c, ~ In c (mkeys comps) -> h' c = h c) /\
    (forall c tl j p, In (c, tl) comps -> hslot h c j = Some p -> chosen tl j p = false -> hslot h' c j = Some p).
Proof.
  induction comps as [|[c tl] comps IH]; intros h vs Hs HL F; simpl in *.
  - exists h. split; [reflexivity|]. split; auto. split; [apply heap_kind_refl|]. split; [auto|tauto].
  - apply sorted_cons in Hs as [Hs Hc]. unfold uval in HL, F. simpl in HL, F. fold (uval h comps) in HL, F.
    rewrite app_length in HL. apply Forall2_app_split in F as [F1 F2].
    unfold uval. simpl. fold (uval h comps). rewrite app_length in *.
    rewrite firstn_firstn in F1. rewrite Nat.min_l in F1 by lia.
    destruct (set_untied_ok tl (m_par (h c)) 0 vs ltac:(lia) F1) as (ps' & E & R1 & R2 & R3). rewrite E.
    set (h1 := hset h c (mk_model (m_src (h c)) ps' (m_freeSrcs (h c)))).
    assert (~ In c (mkeys comps)) as Hn. { intros Hi. rewrite Forall_forall in Hc. specialize (Hc _ Hi). lia. }
    assert (uval h1 comps = uval h comps) as Eu.
    { apply uval_ext. intros x tl' Hx. unfold h1. rewrite hset_neq; auto. intros ->. apply Hn. apply in_map_iff. exists (c, tl'). auto. }
    destruct (IH h1 (skipn (length (untied tl 0 (m_par (h c)))) vs) Hs) as (h' & E' & S1 & S2 & S3 & S4).
    { rewrite Eu, skipn_length. lia. }
    { rewrite Eu. rewrite skipn_firstn_comm in F2. rewrite Nat.add_comm, Nat.add_sub in F2. exact F2. }
    rewrite Eu in *. exists h'. rewrite E'. split.
    { rewrite skipn_skipn. now rewrite Nat.add_comm. }
    assert (h' c = h1 c) as E1 by auto.
    split; [|split; [|split]].
    + rewrite map_app. rewrite E1. unfold h1 at 1. rewrite hset_eq. simpl. rewrite R1.
      change (flat_map (fun p : Z * list nat => untied (snd p) 0 (m_par (h' (fst p)))) comps) with (uval h' comps). rewrite S1.
      rewrite <- (firstn_skipn (length (untied tl 0 (m_par (h c)))) vs) at 3.
      rewrite firstn_app. rewrite firstn_length. rewrite Nat.min_l by lia.
      rewrite firstn_firstn. rewrite Nat.min_r by lia. f_equal. f_equal. lia.
    + eapply heap_kind_trans; [exact S2|]. intros x. unfold h1, hset. destruct (Z.eqb_spec x c) as [->|]; simpl; split; auto; reflexivity.
    + intros x Hx. rewrite S3 by tauto. unfold h1. apply hset_neq. intuition.
    + intros x tl' j p [Ei|Hi] Hp Hch.
      * injection Ei as <- <-. unfold hslot in *. rewrite E1. unfold h1. rewrite hset_eq. simpl. apply R3; auto.
      * apply (S4 x tl'); auto. unfold hslot, h1. rewrite hset_neq; auto. intros ->. apply Hn. apply in_map_iff. exists (c, tl'). auto.
Qed.

(** tied groups *)
Lemma set_members_ok v : forall ms h,
  (forall c i, In (c, i) ms -> exists p, hslot h c i = Some p /\ in_bounds p v) ->
  exists h', set_members h ms v = TDone h' /\ heap_kind h' h /\
    (forall c i, ~ In (c, i) ms -> hslot h' c i = hslot h c i) /\
    (forall c i, In (c, i) ms -> hslot h' c i = option_map (fun p => with_val p v) (hslot h c i)).
Proof.
  induction ms as [|[c i] ms IH]; intros h H; simpl.
  - exists h. split; auto. split; [apply heap_kind_refl|]. split; [auto|simpl; tauto].
  - destruct (H c i (or_introl eq_refl)) as (p & Hp & Hb). unfold hslot in Hp. rewrite Hp. unfold par_set.
    replace ((q_lo p <=? v) && (v <=? q_hi p)) with true by (unfold in_bounds in *; symmetry; apply andb_true_iff; lia).
    set (h1 := hset h c (put_par (h c) i (with_val p v))).
    assert (forall x j, hslot h1 x j = if mem_eqb (x, j) (c, i) then Some (with_val p v) else hslot h x j) as Hh1.
    { intros x j. unfold mem_eqb. simpl. unfold hslot, h1, hset. destruct (Z.eqb_spec x c) as [->|]; simpl; auto.
      destruct (Nat.eqb_spec j i) as [->|Hj].
      - apply nth_error_upd_eq. apply nth_error_Some. congruence.
      - apply nth_error_upd_neq. auto. }
    destruct (IH h1) as (h' & E & S1 & S2 & S3).
    { intros x j Hi. rewrite Hh1. destruct (mem_eqb (x, j) (c, i)) eqn:Em.
      - eexists. split; [reflexivity|]. exact Hb.
      - apply H. simpl; auto. }
    exists h'. rewrite E. split; auto. split; [|split].
    + eapply heap_kind_trans; [exact S1|]. intros x. unfold h1, hset. destruct (Z.eqb_spec x c) as [->|]; simpl; split; try reflexivity.
      eapply same_kind_upd; eauto.
    + intros x j Hn. rewrite S2 by (simpl in Hn; tauto). rewrite Hh1. destruct (mem_eqb (x, j) (c, i)) eqn:Em; auto.
      apply mem_eqb_spec in Em. exfalso. apply Hn. simpl. left. congruence.
    + intros x j Hi. destruct (in_dec mem_dec (x, j) ms) as [Hd|Hd].
      * rewrite S3 by auto. rewrite Hh1. destruct (mem_eqb (x, j) (c, i)) eqn:Em; auto.
        apply mem_eqb_spec in Em. injection Em as -> ->. unfold hslot. rewrite Hp. reflexivity.
      * rewrite S2 by auto. destruct Hi as [Hi|Hi]; [|contradiction]. injection Hi as <- <-. rewrite Hh1.
        rewrite (proj2 (mem_eqb_spec _ _) eq_refl). unfold hslot. now rewrite Hp.
Qed.

Definition free_group (t : tied) : bool := q_free (t_par t).
Definition tvals (ts : list tied) : list param := map t_par (filter free_group ts).
Lemma set_tied_ok : forall ts h vs,
  (forall t c i, In t ts -> In (c, i) (t_mem t) -> free_group t = true ->
     exists p, hslot h c i = Some p /\ q_lo p = q_lo (t_par t) /\ q_hi p = q_hi (t_par t)) ->
  NoDup (flat_map t_mem ts) ->
  Forall2 in_bounds (tvals ts) vs ->
  exists h' ts', set_tied h ts vs = (h', ts', TDone []) /\ heap_kind h' h /\
    map q_val (tvals ts') = vs /\ map t_mem ts' = map t_mem ts /\ same_kind (map t_par ts') (map t_par ts) /\
    (forall c i, ~ In (c, i) (flat_map t_mem ts) -> hslot h' c i = hslot h c i) /\
    (forall g t, nth_error ts' g = Some t -> if free_group t
        then forall c i, In (c, i) (t_mem t) -> hslot h' c i = option_map (fun p => with_val p (q_val (t_par t))) (hslot h c i)
        else nth_error ts g = Some t /\ forall c i, In (c, i) (t_mem t) -> hslot h' c i = hslot h c i).
Proof.
  induction ts as [|t ts IH]; intros h vs HM ND F; simpl in *.
  - inversion F; subst. exists h, []. split; auto. split; [apply heap_kind_refl|]. repeat split; auto. intros [|g] t H; discriminate.
  - unfold tvals in *. simpl in *. change (q_free (t_par t)) with (free_group t).
    pose proof (NoDup_app_r _ _ ND) as ND2.
    assert (forall x, In x (t_mem t) -> ~ In x (flat_map t_mem ts)) as Hdis.
    { clear - ND. induction (t_mem t) as [|y l IHl]; simpl in *; [tauto|]. inversion ND; subst. intros x [<-|Hx]; [rewrite in_app_iff in H1; tauto|auto]. }
    destruct (free_group t) eqn:Ef.
    + simpl in F. inversion F; subst. rename y into v. rename l' into vs'. unfold tied_setValue, par_set.
      replace ((q_lo (t_par t) <=? v) && (v <=? q_hi (t_par t))) with true by (unfold in_bounds in *; symmetry; apply andb_true_iff; lia).
      destruct (set_members_ok v (t_mem t) h) as (h1 & E1 & K1 & M1 & M2).
      { intros c i Hi. destruct (HM t c i (or_introl eq_refl) Hi Ef) as (p & Hp & L1 & L2). exists p. split; auto.
        unfold in_bounds in *. lia. }
      rewrite E1.
      destruct (IH h1 vs') as (h' & ts' & E2 & K2 & V2 & T2 & S2 & N2 & G2); auto.
      { intros t' c i Ht Hi Hf. destruct (HM t' c i (or_intror Ht) Hi Hf) as (p & Hp & L).
        exists p. split; auto. rewrite M1; auto. intros Hin. apply (Hdis _ Hin). apply in_flat_map. eauto. }
      rewrite E2. eexists h', _. split; [reflexivity|]. split; [eapply heap_kind_trans; eauto|]. simpl.
      change (free_group (mk_tied (with_val (t_par t) v) (t_mem t))) with (free_group t). rewrite Ef. simpl.
      split; [congruence|]. split; [congruence|]. split; [unfold same_kind in *; cbn [map]; rewrite S2; reflexivity|]. split.
      * intros c i Hn. rewrite in_app_iff in Hn. rewrite N2 by tauto. apply M1. tauto.
      * intros [|g] t' Hg; simpl in Hg.
        -- injection Hg as <-. simpl. change (free_group (mk_tied (with_val (t_par t) v) (t_mem t))) with (free_group t). rewrite Ef.
           intros c i Hi. rewrite N2 by auto. simpl. now apply M2.
        -- specialize (G2 g t' Hg). destruct (free_group t').
           ++ intros c i Hi. rewrite (G2 c i Hi). f_equal. apply M1. intros Hin. apply (Hdis _ Hin).
              apply in_flat_map.
              assert (nth_error (map t_mem ts') g = Some (t_mem t')) as HH by (rewrite nth_error_map, Hg; reflexivity).
              rewrite T2, nth_error_map in HH. destruct (nth_error ts g) as [t0|] eqn:E0; [|discriminate]. injection HH as HH.
              exists t0. split; [eapply nth_error_In; eauto|]. now rewrite HH.
           ++ destruct G2 as [G2 G3]. split; auto. intros c i Hi. rewrite (G3 c i Hi). apply M1. intros Hin. apply (Hdis _ Hin).
              apply in_flat_map. exists t'. split; auto. eapply nth_error_In; eauto.
    + destruct (IH h vs) as (h' & ts' & E2 & K2 & V2 & T2 & S2 & N2 & G2); auto.
      rewrite E2. eexists h', _. split; [reflexivity|]. split; auto. simpl. rewrite Ef.
      split; [congruence|]. split; [congruence|]. split; [unfold same_kind in *; simpl; congruence|]. split.
      * intros c i Hn. rewrite in_app_iff in Hn. apply N2. tauto.
      * intros [|g] t' Hg; simpl in Hg.
        -- injection Hg as <-. rewrite Ef. split; auto.
        -- apply (G2 g t' Hg).
Qed.

Lemma sync_comps_ok : forall comps h, sorted comps -> (forall c, In c (mkeys comps) -> aligned (h c)) ->
  exists h', sync_comps h comps = TDone h' /\
    (forall c, ~ In c (mkeys comps) -> h' c = h c) /\
    (forall c, In c (mkeys comps) -> m_par (h' c) = picks (m_par (h c)) (source_params (h c)) /\ m_par (h' c) = source_params (h' c) /\ aligned (h' c) /\
        map (fun p => (fst p, s_ids (snd p))) (m_src (h' c)) = map (fun p => (fst p, s_ids (snd p))) (m_src (h c))).
Proof.
  induction comps as [|[c tl] comps IH]; intros h Hs HA; simpl in *.
  - exists h. split; auto. split; [auto|tauto].
  - apply sorted_cons in Hs as [Hs Hc].
    assert (~ In c (mkeys comps)) as Hn. { intros Hi. rewrite Forall_forall in Hc. specialize (Hc _ Hi). lia. }
    destruct (sync_one (h c) (HA c (or_introl eq_refl))) as (m' & E & R). rewrite E.
    destruct (IH (hset h c m') Hs) as (h' & E' & S1 & S2).
    { intros x Hx. rewrite hset_neq; auto. intros ->; contradiction. }
    exists h'. rewrite E'. split; auto. split.
    + intros x Hx. rewrite S1 by tauto. apply hset_neq. intuition.
    + intros x [<-|Hx].
      * rewrite S1 by auto. rewrite hset_eq. exact R.
      * specialize (S2 x Hx). rewrite hset_neq in S2 by (intros ->; contradiction). exact S2.
Qed.

Lemma uval_ext2 h h' comps :
  (forall c tl, In (c, tl) comps -> map nf (m_par (h c)) = map nf (m_par (h' c)) /\
     forall j p p', hslot h c j = Some p -> hslot h' c j = Some p' -> chosen tl j p = true -> p = p') ->
  uval h comps = uval h' comps.
Proof.
  intros H. unfold uval. induction comps as [|[c tl] l IH]; simpl; auto.
  rewrite IH by (intros; apply H; simpl; auto). f_equal.
  destruct (H c tl (or_introl eq_refl)) as [E1 E2].
  apply untied_ext.
  - apply (f_equal (@length _)) in E1. now rewrite !map_length in E1.
  - intros j p p' Hp Hp'. simpl. split.
    + apply (f_equal (fun l => nth_error l j)) in E1. rewrite !nth_error_map, Hp, Hp' in E1. simpl in E1.
      injection E1 as _ E1. unfold chosen. now rewrite E1.
    + apply E2; auto.
Qed.
Lemma nf_nth a b i p q : map nf a = map nf b -> nth_error a i = Some p -> nth_error b i = Some q -> q_name p = q_name q /\ q_free p = q_free q.
Proof.
  intros H Ha Hb. apply (f_equal (fun l => nth_error l i)) in H. rewrite !nth_error_map, Ha, Hb in H. simpl in H. injection H. auto.
Qed.
Lemma nth_error_len {A B} (a : list A) (b : list B) i p : length a = length b -> nth_error a i = Some p -> exists q, nth_error b i = Some q.
Proof.
  intros HL Ha. destruct (nth_error b i) eqn:E; eauto. apply nth_error_None in E.
  assert (i < length a)%nat by (apply nth_error_Some; congruence). lia.
Qed.
Lemma nf_nth_ex a b i p : map nf a = map nf b -> nth_error a i = Some p -> exists q, nth_error b i = Some q.
Proof. intros H. apply nth_error_len. apply (f_equal (@length _)) in H. now rewrite !map_length in H. Qed.
Lemma skel_free p q : skeleton p = skeleton q -> q_free p = q_free q /\ q_lo p = q_lo q /\ q_hi p = q_hi q /\ q_name p = q_name q.
Proof. unfold skeleton. intros H. injection H. auto. Qed.
Lemma mkeys_in {V} c (v : V) m : In (c, v) m -> In c (mkeys m).
Proof. intros H. apply in_map_iff. exists (c, v). auto. Qed.
Lemma mkeys_in_ex {V} c (m : smap V) : In c (mkeys m) -> exists v, In (c, v) m.
Proof. intros H. apply in_map_iff in H as ([x v] & <- & H). eauto. Qed.

Lemma untied_skel tl : forall ps ps' i, same_kind ps ps' -> map skeleton (untied tl i ps) = map skeleton (untied tl i ps').
Proof.
  induction ps as [|p ps IH]; intros [|p' ps'] i H; try discriminate; auto. unfold same_kind in H. cbn [map] in H.
  injection H as H1 H2 H3 H4 H5 H6. cbn [untied]. rewrite H5. specialize (IH ps' (S i) H6).
  destruct (q_free p' && negb (is_tied tl i)); auto. cbn [map]. rewrite IH. f_equal. unfold skeleton. congruence.
Qed.
Lemma uval_skel h h' comps : heap_kind h h' -> map skeleton (uval h comps) = map skeleton (uval h' comps).
Proof.
  intros H. unfold uval. induction comps as [|[c tl] l IH]; simpl; auto. rewrite !map_app, IH. f_equal. apply untied_skel. apply H.
Qed.
Lemma tvals_skel : forall ts ts', same_kind (map t_par ts) (map t_par ts') -> map skeleton (tvals ts) = map skeleton (tvals ts').
Proof.
  unfold tvals, same_kind. induction ts as [|t ts IH]; intros [|t' ts'] H; try discriminate; auto. cbn [map] in H.
  assert (skeleton (t_par t) = skeleton (t_par t')) as Hk by congruence.
  assert (map skeleton (map t_par ts) = map skeleton (map t_par ts')) as Hr by congruence.
  assert (free_group t = free_group t') as Hf by (apply (skel_free _ _ Hk)).
  cbn [filter]. rewrite Hf. destruct (free_group t'); cbn [map]; [|auto]. rewrite Hk, (IH _ Hr). reflexivity.
Qed.

Lemma setFree_ok k vs ps : joint_ok k -> getFreeParams k = Some ps -> Forall2 in_bounds ps vs ->
  exists k', setFreeParamValues k vs = TDone k' /\ joint_ok k' /\ (exists ps', getFreeParams k' = Some ps' /\ map q_val ps' = vs /\ map skeleton ps' = map skeleton ps) /\
    mkeys (k_comps k') = mkeys (k_comps k) /\ map t_mem (k_tied k') = map t_mem (k_tied k) /\
    map skeleton (map t_par (k_tied k')) = map skeleton (map t_par (k_tied k)) /\
    (forall c, In c (mkeys (k_comps k)) -> m_par (k_heap k' c) = source_params (k_heap k' c) /\
        map (fun p => (fst p, s_ids (snd p))) (m_src (k_heap k' c)) = map (fun p => (fst p, s_ids (snd p))) (m_src (k_heap k c))) /\
    (forall g t c i, nth_error (k_tied k') g = Some t -> q_free (t_par t) = true -> In (c, i) (t_mem t) ->
        exists p, nth_error (source_params (k_heap k' c)) i = Some p /\ q_val p = q_val (t_par t)) /\
    (forall c i p, In c (mkeys (k_comps k)) -> nth_error (source_params (k_heap k c)) i = Some p -> q_free p = false ->
        nth_error (source_params (k_heap k' c)) i = Some p) /\
    (forall t, In t (k_tied k) -> q_free (t_par t) = false -> In t (k_tied k')).
Proof.
  intros J Hg F. destruct J as [J1 J2 J3 J4 J5]. unfold getFreeParams in Hg. unfold setFreeParamValues.
  destruct (k_comps k) as [|p0 l0] eqn:Ek; [discriminate|]. rewrite <- Ek in *. injection Hg as <-.
  change (flat_map (fun p => untied (snd p) 0 (m_par (k_heap k (fst p)))) (k_comps k)) with (uval (k_heap k) (k_comps k)) in F.
  change (map t_par (filter (fun t => q_free (t_par t)) (k_tied k))) with (tvals (k_tied k)) in F.
  pose proof (Forall2_len _ _ _ F) as HL. rewrite app_length in HL.
  apply Forall2_app_split in F as [F1 F2].
  destruct (set_comps_ok (k_comps k) (k_heap k) vs J1 ltac:(lia) F1) as (h1 & E1 & V1 & K1 & N1 & S1). rewrite E1.
  assert (forall t c i, In t (k_tied k) -> In (c, i) (t_mem t) -> hslot h1 c i = hslot (k_heap k) c i) as Hm1.
  { intros t c i Ht Hi. destruct (J5 t c i Ht Hi) as (Hc & p & Hp & _). apply mkeys_in_ex in Hc as (tl & Hc).
    unfold slot in Hp. unfold hslot. rewrite Hp. apply (S1 c tl); auto. unfold chosen. apply andb_false_iff. right.
    rewrite (proj2 (is_tied_spec tl i)); auto. apply (J3 c tl Hc). exists t. auto. }
  destruct (set_tied_ok (k_tied k) h1 (skipn (length (uval (k_heap k) (k_comps k))) vs)) as (h2 & ts & E2 & K2 & V2 & T2 & S2 & N2 & G2); auto.
  { intros t c i Ht Hi Hf. rewrite (Hm1 t c i Ht Hi). destruct (J5 t c i Ht Hi) as (_ & p & Hp & Hq & Hb).
    exists p. split; [exact Hp|]. apply Hb. unfold free_group in Hf. congruence. }
  rewrite E2. unfold syncComposite. cbn [k_heap k_comps k_tied k_par].
  pose proof (heap_kind_trans _ _ _ K2 K1) as K21.
  assert (forall c, In c (mkeys (k_comps k)) -> aligned (h2 c)) as A2.
  { intros c Hc. destruct (J2 c Hc) as [A1 A3]. destruct (K21 c) as [L1 L2]. split.
    - unfold source_params. rewrite L1. etransitivity; [apply (same_kind_nf _ _ L2)|]. exact A1.
    - now rewrite L1. }
  destruct (sync_comps_ok (k_comps k) h2 J1 A2) as (h3 & E3 & N3 & R3). rewrite E3.
  eexists. split; [reflexivity|]. cbn [k_heap k_comps k_tied k_par].
  assert (forall g t', nth_error ts g = Some t' -> exists t, nth_error (k_tied k) g = Some t /\ t_mem t' = t_mem t /\ skeleton (t_par t') = skeleton (t_par t)) as HT.
  { intros g t' Hg. assert (length ts = length (k_tied k)) as HLt by (apply (f_equal (@length _)) in T2; now rewrite !map_length in T2).
    destruct (nth_error_len _ _ g t' HLt Hg) as (t & Et). exists t. split; auto. split.
    - apply (f_equal (fun l => nth_error l g)) in T2. rewrite !nth_error_map, Hg, Et in T2. simpl in T2. congruence.
    - eapply (same_kind_nth _ _ g); [exact S2| |]; rewrite nth_error_map; [rewrite Hg|rewrite Et]; reflexivity. }
  assert (length (k_tied k) = length ts) as HLt by (apply (f_equal (@length _)) in T2; now rewrite !map_length in T2).
  assert (forall c i q, In c (mkeys (k_comps k)) -> hslot h2 c i = Some q -> exists p,
            nth_error (source_params (k_heap k c)) i = Some p /\ q_free q = q_free p /\
            nth_error (m_par (h3 c)) i = Some (pick q p)) as HP.
  { intros c i q Hc Hq. destruct (R3 c Hc) as (R31 & _). destruct (A2 c Hc) as [A3 _].
    destruct (nf_nth_ex _ _ i q A3 Hq) as (p & Hp). exists p.
    assert (source_params (h2 c) = source_params (k_heap k c)) as Es by (unfold source_params; now rewrite (proj1 (K21 c))).
    split; [congruence|]. split; [exact (proj2 (nf_nth _ _ i q p A3 Hq Hp))|].
    rewrite R31. apply picks_nth; auto. }
  split; [|split; [|split; [|split; [|split; [|split; [|split; [|split]]]]]]].
  - split; cbn [k_heap k_comps k_tied k_par]; auto.
    + intros c Hc. apply (R3 c Hc).
    + intros c tl Hc i. rewrite (J3 c tl Hc i). unfold in_some_group. cbn [k_tied]. split.
      * intros (t & Ht & Hi). apply In_nth_error in Ht as (g & Hg').
        assert (exists t', nth_error ts g = Some t') as (t' & Ht').
        { eapply nth_error_len; eauto. }
        destruct (HT g t' Ht') as (t0 & E0 & Em & _). rewrite E0 in Hg'. injection Hg' as ->. exists t'. split; [eapply nth_error_In; eauto|congruence].
      * intros (t' & Ht & Hi). apply In_nth_error in Ht as (g & Hg'). destruct (HT g t' Hg') as (t & E0 & Em & _).
        exists t. split; [eapply nth_error_In; eauto|congruence].
    + rewrite flat_map_concat_map, T2, <- flat_map_concat_map. exact J4.
    + intros t' c i Ht Hi. apply In_nth_error in Ht as (g & Hg'). destruct (HT g t' Hg') as (t & E0 & Em & Es).
      rewrite Em in Hi. destruct (J5 t c i (nth_error_In _ _ E0) Hi) as (Hc & p & Hp & Hf & Hb). split; auto.
      assert (exists q, hslot h2 c i = Some q /\ skeleton q = skeleton p) as (q & Hq & Hqs).
      { assert (exists q, hslot h2 c i = Some q) as (q & Hq). { apply (nf_nth_ex (m_par (k_heap k c)) _ i p); auto. symmetry. apply same_kind_nf. apply K21. }
        exists q. split; auto. apply (same_kind_nth _ _ i q p (proj2 (K21 c)) Hq Hp). }
      destruct (HP c i q Hc Hq) as (p1 & Hp1 & Hf1 & H3). exists (pick q p1). split; [exact H3|].
      apply skel_free in Es as (Es1 & Es2 & Es3 & _). apply skel_free in Hqs as (Q1 & Q2 & Q3 & _).
      unfold pick. destruct (q_free q) eqn:Eq.
      * split; [congruence|]. intros _. rewrite Q2, Q3, Es2, Es3. apply Hb. congruence.
      * split; [congruence|]. congruence.
  - assert (uval h3 (k_comps k) = uval h1 (k_comps k)) as EU; [|
      unfold getFreeParams; cbn [k_heap k_comps k_tied k_par]; rewrite Ek; rewrite <- Ek; eexists; split; [reflexivity|];
      change (flat_map (fun p => untied (snd p) 0 (m_par (h3 (fst p)))) (k_comps k)) with (uval h3 (k_comps k));
      change (map t_par (filter (fun t => q_free (t_par t)) ts)) with (tvals ts); rewrite !map_app, V2, EU, V1; split;
      [apply firstn_skipn|f_equal; [now apply uval_skel|now apply tvals_skel]]].
    transitivity (uval h2 (k_comps k)).
    + symmetry. apply uval_ext2. intros c tl Hc. pose proof (mkeys_in _ _ _ Hc) as Hc'.
      destruct (R3 c Hc') as (R31 & _ & [A3 _] & _). destruct (A2 c Hc') as [A4 _]. split.
      * rewrite R31. rewrite picks_nf; auto.
      * intros j p p' Hp Hp' Hch. destruct (HP c j p Hc' Hp) as (p1 & _ & _ & H3). unfold hslot in Hp'. rewrite H3 in Hp'.
        unfold pick in Hp'. unfold chosen in Hch. apply andb_true_iff in Hch as [Hch _]. rewrite Hch in Hp'. congruence.
    + symmetry. apply uval_ext2. intros c tl Hc. split; [symmetry; apply same_kind_nf; apply K2|].
      intros j p p' Hp Hp' Hch. rewrite N2 in Hp'; [congruence|].
      intros Hin. apply in_flat_map in Hin as (t & Ht & Hi). unfold chosen in Hch. apply andb_true_iff in Hch as [_ Hch].
      apply negb_true_iff in Hch. assert (is_tied tl j = true); [|congruence]. apply is_tied_spec. apply (J3 c tl Hc). exists t. auto.
  - reflexivity.
  - exact T2.
  - exact S2.
  - intros c Hc. destruct (R3 c Hc) as (_ & R32 & _ & R34). split; auto. rewrite R34. now rewrite (proj1 (K21 c)).
  - intros g t' c i Hg Hf Hi. destruct (HT g t' Hg) as (t & E0 & Em & Es).
    rewrite Em in Hi. destruct (J5 t c i (nth_error_In _ _ E0) Hi) as (Hc & p & Hp & Hfp & Hb).
    specialize (G2 g t' Hg). unfold free_group in G2. rewrite Hf in G2. rewrite Em in G2. specialize (G2 c i Hi).
    rewrite (Hm1 t c i (nth_error_In _ _ E0) Hi) in G2. unfold slot in Hp. unfold hslot in G2 at 2. rewrite Hp in G2. simpl in G2.
    destruct (HP c i _ Hc G2) as (p1 & Hp1 & Hf1 & H3). destruct (R3 c Hc) as (_ & R32 & _). rewrite <- R32. rewrite H3.
    eexists. split; [reflexivity|]. unfold pick. cbn [q_free with_val].
    apply skel_free in Es as (Es1 & _). rewrite Hfp, <- Es1, Hf. reflexivity.
  - intros c i p Hc Hp Hf. destruct (R3 c Hc) as (_ & R32 & _). rewrite <- R32.
    destruct (A2 c Hc) as [A3 _]. assert (source_params (h2 c) = source_params (k_heap k c)) as Es by (unfold source_params; now rewrite (proj1 (K21 c))).
    rewrite Es in A3. destruct (nf_nth_ex _ _ i p (eq_sym A3) Hp) as (q & Hq).
    destruct (HP c i q Hc Hq) as (p1 & Hp1 & Hf1 & H3). rewrite H3. rewrite Hp in Hp1. injection Hp1 as <-.
    unfold pick. rewrite Hf1, Hf. reflexivity.
  - intros t Ht Hf. apply In_nth_error in Ht as (g & Hg').
    destruct (nth_error_len _ _ g t HLt Hg') as (t' & Et).
    pose proof (G2 g t' Et) as Hgt. destruct (HT g t' Et) as (t0 & E0 & Em & Es). apply skel_free in Es as (Es1 & _).
    rewrite E0 in Hg'. injection Hg' as ->. unfold free_group in Hgt. rewrite Es1, Hf in Hgt. destruct Hgt as [Hgt _].
    rewrite E0 in Hgt. injection Hgt as ->. eapply nth_error_In; eauto.
Qed.

(** *** tying *)
Definition tie_inv (h0 : heap) (comps0 : smap (list nat)) (n : Z) (f : bool) (st : heap * smap (list nat) * tied) : Prop :=
  let '(h, comps, t) := st in
  (forall c, m_src (h c) = m_src (h0 c) /\ map nf (m_par (h c)) = map nf (m_par (h0 c))) /\
  (forall c i, ~ In (c, i) (t_mem t) -> hslot h c i = hslot h0 c i) /\
  (forall c i, In (c, i) (t_mem t) -> hslot h c i = Some (t_par t)) /\
  sorted comps /\ NoDup (t_mem t) /\ (t_mem t <> [] -> q_name (t_par t) = n /\ q_free (t_par t) = f) /\
  (forall c, match mfind c comps, mfind c comps0 with
             | Some tl, Some tl0 => forall i, In i tl <-> In i tl0 \/ In (c, i) (t_mem t)
             | None, None => True
             | _, _ => False
             end).

Lemma nf_upd ps i p q : nth_error ps i = Some p -> nf q = nf p -> map nf (upd ps i q) = map nf ps.
Proof.
  revert i. induction ps as [|x ps IH]; intros [|i] E H; simpl in *; try discriminate.
  - injection E as ->. now rewrite H.
  - f_equal. auto.
Qed.
Lemma hset_slot h c i p q x j : hslot h c i = Some p ->
  hslot (hset h c (put_par (h c) i q)) x j = if mem_eqb (x, j) (c, i) then Some q else hslot h x j.
Proof.
  intros Hp. unfold mem_eqb. simpl. unfold hslot, hset. destruct (Z.eqb_spec x c) as [->|]; simpl; auto.
  destruct (Nat.eqb_spec j i) as [->|Hj].
  - apply nth_error_upd_eq. apply nth_error_Some. unfold hslot in Hp. congruence.
  - apply nth_error_upd_neq. auto.
Qed.

Lemma tie_step h0 comps0 n f h comps t c i p : tie_inv h0 comps0 n f (h, comps, t) ->
  hslot h0 c i = Some p -> q_name p = n -> q_free p = f -> mfind c comps0 <> None ->
  exists h' t', addParam h t c i = TDone (h', t') /\
    (forall x, In x (t_mem t') <-> In x (t_mem t) \/ x = (c, i)) /\
    (t_mem t <> [] -> t_par t' = t_par t) /\ (t_mem t = [] -> t_par t' = p) /\
    tie_inv h0 comps0 n f (h', minsert c (match mfind c comps with Some l => l | None => [] end ++ [i]) comps, t').
Proof.
  intros (I1 & I2 & I3 & I4 & I5 & I6 & I7) Hp Hn Hf Hc.
  assert (exists p', hslot h c i = Some p' /\ q_name p' = n /\ q_free p' = f) as (p' & Hp' & Hn' & Hf').
  { destruct (nf_nth_ex _ _ i p (eq_sym (proj2 (I1 c))) Hp) as (p' & Hp'). exists p'. split; auto.
    destruct (nf_nth _ _ i p' p (proj2 (I1 c)) Hp' Hp). split; congruence. }
  unfold addParam. unfold hslot in Hp'. rewrite Hp'.
  set (t1 := match t_mem t with [] => mk_tied p' (t_mem t) | _ => t end).
  assert (t_mem t1 = t_mem t) as Em1 by (unfold t1; destruct (t_mem t) eqn:E; simpl; auto).
  assert (nf (t_par t1) = (n, f)) as En1.
  { unfold t1, nf. destruct (t_mem t) eqn:E; simpl; [congruence|]. destruct (I6 ltac:(discriminate)). congruence. }
  assert (t_mem t = [] -> t_par t1 = p) as Ep1.
  { intros E. unfold t1. rewrite E. simpl. rewrite I2 in Hp' || idtac. unfold hslot in I2. rewrite I2 in Hp' by (rewrite E; simpl; tauto).
    unfold hslot in Hp. congruence. }
  assert (t_mem t <> [] -> t_par t1 = t_par t) as Ep2.
  { intros E. unfold t1. destruct (t_mem t); [contradiction|auto]. }
  assert (forall t', (forall x, In x (t_mem t') <-> In x (t_mem t) \/ x = (c, i)) ->
     forall x, match mfind x (minsert c (match mfind c comps with Some l => l | None => [] end ++ [i]) comps), mfind x comps0 with
             | Some tl, Some tl0 => forall i, In i tl <-> In i tl0 \/ In (x, i) (t_mem t')
             | None, None => True | _, _ => False end) as HC.
  { intros t' Ht' x. destruct (Z.eq_dec x c) as [->|Hx].
    - rewrite mfind_insert_eq. specialize (I7 c). destruct (mfind c comps0) as [tl0|] eqn:E0; [|contradiction].
      destruct (mfind c comps) as [tl|]; [|contradiction]. intros j. rewrite in_app_iff, I7, Ht'. simpl.
      split; [intros [[H|H]|[->|[]]]; auto|]. intros [H|[H|H]]; auto. injection H as ->. auto.
    - rewrite mfind_insert_neq by auto. specialize (I7 x). destruct (mfind x comps), (mfind x comps0); auto.
      intros j. rewrite I7, Ht'. split; [tauto|]. intros [H|[H|H]]; auto. injection H as -> ->. contradiction. }
  assert (forall l : list (Z * nat), match l with [] => t1 | _ => t1 end = t1) as _ by (intros []; auto).
  replace (match t_mem t with [] => mk_tied p' (t_mem t) | _ :: _ => t end) with t1 by reflexivity.
  assert (addP_cases : forall {B} (a b : B), match t_mem t with [] => b | _ :: _ => b end = b) by (intros; destruct (t_mem t); auto).
  rewrite addP_cases by exact (TUndef (S := heap * tied)).
  destruct (has_member t1 c i) eqn:Eh.
  - apply has_member_spec in Eh. rewrite Em1 in Eh. assert (t_mem t <> []) as Hne by (intros E; rewrite E in Eh; auto).
    exists h, t1. split; auto. assert (t1 = t) as -> by (unfold t1; destruct (t_mem t); [contradiction|auto]).
    assert (forall x, In x (t_mem t) <-> In x (t_mem t) \/ x = (c, i)) as Hx by (intros x; split; [auto|intros [H| ->]; auto]).
    split; auto. split; auto. split; [contradiction|]. unfold tie_inv.
    split; [exact I1|]. split; [exact I2|]. split; [exact I3|]. split; [now apply sorted_insert|]. split; [exact I5|]. split; [exact I6|]. apply (HC t Hx).
  - assert (~ In (c, i) (t_mem t)) as Hni. { intros H. rewrite <- Em1 in H. apply has_member_spec in H. congruence. }
    eexists _, _. split; [reflexivity|]. cbn [t_mem t_par]. rewrite Em1.
    assert (forall x, In x (t_mem t ++ [(c, i)]) <-> In x (t_mem t) \/ x = (c, i)) as Hx.
    { intros x. rewrite in_app_iff. simpl. intuition. }
    split; auto. split; auto. split; auto. unfold tie_inv. cbn [t_mem t_par].
    split; [|split; [|split; [|split; [|split; [|split]]]]].
    + intros x. unfold hset. destruct (Z.eqb_spec x c) as [->|]; [|apply I1]. simpl. split; [apply I1|].
      rewrite (nf_upd _ i p'); auto; [apply I1|]. rewrite En1. unfold nf. congruence.
    + intros x j Hj. rewrite (hset_slot h c i p') by exact Hp'. destruct (mem_eqb (x, j) (c, i)) eqn:E.
      * apply mem_eqb_spec in E. exfalso. apply Hj. apply Hx. auto.
      * apply I2. intros H. apply Hj. apply Hx. auto.
    + intros x j Hj. rewrite (hset_slot h c i p') by exact Hp'. destruct (mem_eqb (x, j) (c, i)) eqn:E; auto.
      apply Hx in Hj as [Hj|Hj]; [|apply mem_eqb_spec in Hj; congruence].
      rewrite I3 by auto. f_equal. symmetry. apply Ep2. intros E'. rewrite E' in Hj. auto.
    + now apply sorted_insert.
    + apply NoDup_app; auto; [repeat constructor; auto|]. intros x Hxx [<-|[]]. contradiction.
    + intros _. unfold nf in En1. injection En1; auto.
    + apply (HC (mk_tied (t_par t1) (t_mem t ++ [(c, i)]))). exact Hx.
Qed.

Lemma tie_loop_ok h0 comps0 n f : forall pars h comps t, tie_inv h0 comps0 n f (h, comps, t) ->
  (forall c i, In (c, i) pars -> mfind c comps0 <> None /\ exists p, hslot h0 c i = Some p /\ q_name p = n /\ q_free p = f) ->
  exists h' comps' t', tie_loop h comps t pars = TDone (h', comps', t') /\ tie_inv h0 comps0 n f (h', comps', t') /\
    (forall x, In x (t_mem t') <-> In x (t_mem t) \/ In x pars) /\
    (t_mem t <> [] -> t_par t' = t_par t) /\
    (t_mem t = [] -> match pars with [] => True | (c, i) :: _ => hslot h0 c i = Some (t_par t') end).
Proof.
  induction pars as [|[c i] pars IH]; intros h comps t I H; simpl.
  - exists h, comps, t. split; auto. split; auto. split; [intros; tauto|]. auto.
  - destruct (H c i (or_introl eq_refl)) as (Hc & p & Hp & Hn & Hf).
    destruct (tie_step h0 comps0 n f h comps t c i p I Hp Hn Hf Hc) as (h1 & t1 & E1 & M1 & P1 & P2 & I1). rewrite E1.
    destruct (IH _ _ _ I1) as (h' & comps' & t' & E' & I' & M' & Q1 & Q2).
    { intros; apply H; simpl; auto. }
    assert (t_mem t1 <> []) as Hne1. { intros E. assert (In (c, i) (t_mem t1)) as Hin by (apply M1; auto). rewrite E in Hin. auto. }
    exists h', comps', t'. rewrite E'. split; auto. split; auto. split; [|split].
    + intros x. rewrite M', M1. simpl. intuition.
    + intros Hne. rewrite (Q1 Hne1). auto.
    + intros E. rewrite (Q1 Hne1), (P2 E). exact Hp.
Qed.

Lemma tie_ok dflt k pars n f : joint_ok k -> pars <> [] ->
  (forall c i, In (c, i) pars -> In c (mkeys (k_comps k)) /\ ~ in_some_group k c i /\
     exists p, slot k c i = Some p /\ q_name p = n /\ q_free p = f) ->
  exists k' t, tieParameters dflt k pars = TDone k' /\ joint_ok k' /\ k_tied k' = k_tied k ++ [t] /\
    mkeys (k_comps k') = mkeys (k_comps k) /\
    (forall x, In x (t_mem t) <-> In x pars) /\
    (match pars with [] => True | (c, i) :: _ => slot k c i = Some (t_par t) end) /\
    (forall c i, In (c, i) pars -> slot k' c i = Some (t_par t)) /\
    (forall c i, ~ In (c, i) pars -> slot k' c i = slot k c i) /\
    (forall c, m_src (k_heap k' c) = m_src (k_heap k c)).
Proof.
  intros [J1 J2 J3 J4 J5] Hne H.
  assert (tie_inv (k_heap k) (k_comps k) n f (k_heap k, k_comps k, mk_tied dflt [])) as I0.
  { unfold tie_inv. simpl. split; [auto|]. split; [auto|]. split; [tauto|]. split; [auto|]. split; [constructor|]. split; [contradiction|].
    intros c. destruct (mfind c (k_comps k)); auto. intros; tauto. }
  destruct (tie_loop_ok _ _ n f pars _ _ _ I0) as (h & comps & t & E & I & M & _ & P).
  { intros c i Hi. destruct (H c i Hi) as (Hc & _ & Hp). split; auto. apply mkeys_in_ex in Hc as (tl & Hc).
    rewrite (mfind_In _ _ _ J1 Hc). discriminate. }
  simpl in M, P. specialize (P eq_refl). destruct I as (I1 & I2 & I3 & I4 & I5 & I6 & I7).
  assert (forall x, In x (t_mem t) <-> In x pars) as M' by (intros x; rewrite M; tauto).
  unfold tieParameters. rewrite E. eexists _, t. split; [reflexivity|].
  assert (mkeys comps = mkeys (k_comps k)) as EK.
  { clear - I4 J1 I7. revert comps I4 I7. induction (k_comps k) as [|[a v] l IH]; intros [|[b w] l'] I4 I7; auto.
    - specialize (I7 b). simpl in I7. rewrite Z.eqb_refl in I7. contradiction.
    - specialize (I7 a). simpl in I7. rewrite Z.eqb_refl in I7. contradiction.
    - apply sorted_cons in J1 as [J1 JF]. apply sorted_cons in I4 as [I4 IF].
      assert (forall (V : Type) x (m : smap V) y, Forall (Z.lt y) (mkeys m) -> (x <= y) -> mfind x m = None) as HN.
      { intros V x m y HF Hx. apply mfind_none. intros Hi. rewrite Forall_forall in HF. specialize (HF _ Hi). lia. }
      assert (a = b) as ->.
      { destruct (Z.lt_trichotomy a b) as [Hl|[Hl|Hl]]; auto; exfalso.
        - specialize (I7 a). simpl in I7. rewrite Z.eqb_refl in I7. destruct (Z.eqb_spec a b); [lia|].
          rewrite (HN _ a l' b IF) in I7 by lia. auto.
        - specialize (I7 b). simpl in I7. rewrite Z.eqb_refl in I7. destruct (Z.eqb_spec b a); [lia|].
          rewrite (HN _ b l a JF) in I7 by lia. auto. }
      simpl. f_equal. apply IH; auto. intros c. specialize (I7 c). simpl in I7. destruct (Z.eq_dec c b) as [Ec|Ec].
      + rewrite Ec. rewrite (HN _ b l' b IF), (HN _ b l b JF) by lia. auto.
      + rewrite (proj2 (Z.eqb_neq _ _) Ec) in I7. exact I7. }
  assert (forall c i, In (c, i) (t_mem t) -> ~ in_some_group k c i) as Hng.
  { intros c i Hi. apply M' in Hi. apply (H c i Hi). }
  split; [|split; [reflexivity|split; [exact EK|split; [exact M'|split; [|split; [|split]]]]]]; cbn [k_heap k_comps k_tied k_par].
  - split; cbn [k_heap k_comps k_tied k_par]; auto.
    + intros c Hc. rewrite EK in Hc. destruct (J2 c Hc) as [A1 A2]. destruct (I1 c) as [E1 E2]. split.
      * unfold source_params. rewrite E1. etransitivity; [exact E2|exact A1].
      * now rewrite E1.
    + intros c tl Hc i. pose proof (mfind_In _ _ _ I4 Hc) as Hf. specialize (I7 c). rewrite Hf in I7.
      destruct (mfind c (k_comps k)) as [tl0|] eqn:E0; [|contradiction]. rewrite I7. apply mfind_in in E0. rewrite (J3 c tl0 E0).
      unfold in_some_group. cbn [k_tied]. split.
      * intros [(t0 & Ht & Hi)|Hi]; [exists t0|exists t]; rewrite in_app_iff; simpl; auto.
      * intros (t0 & Ht & Hi). rewrite in_app_iff in Ht. simpl in Ht. destruct Ht as [Ht|[<-|[]]]; auto. left. eauto.
    + rewrite flat_map_app. simpl. rewrite app_nil_r. apply NoDup_app; auto.
      intros [c i] Hx Hi. apply (Hng c i Hi). apply in_flat_map in Hx as (t0 & Ht & Hx). exists t0; auto.
    + intros t0 c i Ht Hi. rewrite EK. rewrite in_app_iff in Ht. simpl in Ht. destruct Ht as [Ht|[<-|[]]].
      * destruct (J5 t0 c i Ht Hi) as (Hc & p & Hp & R). split; auto. exists p. split; auto. unfold slot. cbn [k_heap].
        rewrite <- Hp. apply I2. intros Hx. apply (Hng c i Hx). exists t0; auto.
      * split; [apply (H c i); apply M'; auto|]. exists (t_par t). split; [apply (I3 c i Hi)|]. auto.
  - destruct pars as [|[c i] pars]; auto.
  - intros c i Hi. apply (I3 c i). now apply M'.
  - intros c i Hi. apply (I2 c i). intros Hx. apply Hi. now apply M'.
  - intros c. apply I1.
Qed.

(** Lemmas: extraction from the model, updates, and the test source. *)
From Verif Require Import Base AccumModel AccumProofs VecModel VecProofs PoissonModel PoissonSpec PoissonProofs FscModel FscSpec FscProofs.
From Verif Require SmapNpred.
From Coq Require Import Reals Lra Lia Permutation.
Local Open Scope R_scope.

Lemma length_counts s : length (counts s) = length (s_shape s).
Proof. apply map_length. Qed.
Lemma nth_counts s b : nth b (counts s) 0 = count_in s b.
Proof. unfold counts, count_in. rewrite nth_map0; auto. lra. Qed.

Lemma add_counts f s c nbins : length f = nbins -> length (s_shape s) = nbins ->
  exists f', add_fixed f (counts s) c = Ok f' /\ length f' = nbins /\ forall b, nth b f' 0 = nth b f 0 + c * count_in s b.
Proof.
  intros E1 E2. assert (L : length f = length (counts s)) by (rewrite length_counts; congruence).
  rewrite add_fixed_ok by exact L. eexists. split; [reflexivity|]. split; [rewrite map2_length; auto|].
  intros b. rewrite nth_map2; auto; [|lra]. rewrite nth_counts. lra.
Qed.

(** The reference value chosen for a free source. *)
Definition refval (unitRef : bool) (s : source) : R := if (unitRef && Rltb 0 (s_norm s))%bool then 1 else s_norm s.
Definition is_template (test : Z) (s : source) : bool := (negb (Z.eqb (s_name s) test) && s_free s)%bool.
Definition is_fixed (test : Z) (s : source) : bool := (negb (Z.eqb (s_name s) test) && negb (s_free s))%bool.
Definition is_test (test : Z) (s : source) : bool := Z.eqb (s_name s) test.

Lemma template_of unitRef s :
  (if (unitRef && Rltb 0 (s_norm s))%bool then scaled (1 / s_norm s) (counts s) else counts s) = tmpl (s, refval unitRef s).
Proof.
  unfold refval, tmpl. simpl. destruct unitRef; [|reflexivity]. simpl. destruct (Rltb_spec 0 (s_norm s)) as [N|_]; [|reflexivity].
  unfold scaled, counts. rewrite map_map. apply map_ext. intros x. field. lra.
Qed.

Lemma extract_spec nbins test unitRef : forall srcs x,
  (forall s, In s srcs -> length (s_shape s) = nbins) -> (forall s, In s srcs -> s_name s = test -> s_norm s <> 0) ->
  length (x_fixed x) = nbins -> length (x_test x) = nbins ->
  exists x', mfold (extract_step test unitRef) srcs x = Ok x' /\
    let tm := map (fun s => (s, refval unitRef s)) (filter (is_template test) srcs) in
    x_names x' = x_names x ++ map tname tm /\ x_templates x' = x_templates x ++ map tmpl tm /\ x_refs x' = x_refs x ++ map snd tm /\
    length (x_fixed x') = nbins /\ length (x_test x') = nbins /\
    (forall b, nth b (x_fixed x') 0 = nth b (x_fixed x) 0 + Rsum (map (fun s => count_in s b) (filter (is_fixed test) srcs))) /\
    (forall b, nth b (x_test x') 0 = nth b (x_test x) 0 + Rsum (map (fun s => nth b (s_shape s) 0) (filter (is_test test) srcs))).
Proof.
  induction srcs as [|s srcs IH]; intros x W N Lf Lt.
  - exists x. split; [reflexivity|]. simpl. rewrite !app_nil_r. repeat split; auto; intros; lra.
  - assert (W' : forall s, In s srcs -> length (s_shape s) = nbins) by (intros; apply W; now right).
    assert (N' : forall s, In s srcs -> s_name s = test -> s_norm s <> 0) by (intros y H1 H2; apply N; auto; now right).
    assert (Ws : length (s_shape s) = nbins) by (apply W; now left).
    assert (K1 : is_template test s = (negb (Z.eqb (s_name s) test) && s_free s)%bool) by reflexivity.
    assert (K2 : is_fixed test s = (negb (Z.eqb (s_name s) test) && negb (s_free s))%bool) by reflexivity.
    assert (K3 : is_test test s = Z.eqb (s_name s) test) by reflexivity.
    cbn [mfold filter]. unfold extract_step at 1. rewrite K1, K2, K3.
    destruct (Z.eqb (s_name s) test) eqn:Et; cbn [negb andb].
    + assert (Ns : s_norm s <> 0) by (apply N; [now left|now apply Z.eqb_eq]).
      destruct (Reqb_spec (s_norm s) 0) as [|_]; [contradiction|].
      destruct (add_counts (x_test x) s (1 / s_norm s) nbins Lt Ws) as (t & E & Lt' & Et').
      rewrite E. cbn [obind].
      destruct (IH {| x_names := x_names x; x_templates := x_templates x; x_fixed := x_fixed x; x_test := t; x_refs := x_refs x |}) as (x' & E' & A1 & A2 & A3 & A4 & A5 & A6 & A7); auto.
      exists x'. split; [exact E'|]. simpl in A1, A2, A3, A6, A7. repeat split; auto.
      intros b. rewrite A7, Et'. simpl. unfold count_in. field. exact Ns.
    + destruct (s_free s) eqn:Ef; cbn [negb].
      * rewrite template_of. fold (refval unitRef s). cbn [obind].
        match goal with |- exists x', mfold _ _ ?y = _ /\ _ => destruct (IH y) as (x' & E' & A1 & A2 & A3 & A4 & A5 & A6 & A7); auto end.
        exists x'. split; [exact E'|]. simpl in A1, A2, A3, A6, A7. cbn [map]. rewrite <- app_assoc in A1, A2, A3. repeat split; auto.
      * destruct (add_counts (x_fixed x) s 1 nbins Lf Ws) as (f & E & Lf' & Ef').
        rewrite E. cbn [obind].
        destruct (IH {| x_names := x_names x; x_templates := x_templates x; x_fixed := f; x_test := x_test x; x_refs := x_refs x |}) as (x' & E' & A1 & A2 & A3 & A4 & A5 & A6 & A7); auto.
        exists x'. split; [exact E'|]. simpl in A1, A2, A3, A6, A7. repeat split; auto.
        intros b. rewrite A6, Ef'. simpl. lra.
Qed.

Lemma extract_fixed_spec nbins test latched srcs : (forall s, In s srcs -> length (s_shape s) = nbins) ->
  (forall s, In s (others test latched srcs) -> s_free s = false) ->
  exists f, extractFixedModel nbins test latched srcs = Ok f /\ length f = nbins /\
    forall b, nth b f 0 = Rsum (map (fun s => count_in s b) (others test latched srcs)).
Proof.
  intros W. unfold extractFixedModel.
  assert (G : forall f, length f = nbins -> (forall s, In s (others test latched srcs) -> s_free s = false) ->
    exists f', mfold (fun f s => if Z.eqb (s_name s) test then Ok f else if existsb (Z.eqb (s_name s)) latched then Ok f
       else if s_free s then Ok f else add_fixed f (counts s) 1) srcs f = Ok f' /\ length f' = nbins /\
       forall b, nth b f' 0 = nth b f 0 + Rsum (map (fun s => count_in s b) (others test latched srcs))).
  { revert W. induction srcs as [|s srcs IH]; intros W f L F.
    - exists f. repeat split; auto. intros; simpl; lra.
    - assert (W' : forall s, In s srcs -> length (s_shape s) = nbins) by (intros; apply W; now right).
      cbn [mfold]. unfold others in *. cbn [filter] in *.
      destruct (Z.eqb (s_name s) test) eqn:Et; cbn [negb andb obind] in *; [apply IH; auto|].
      destruct (existsb (Z.eqb (s_name s)) latched) eqn:El; cbn [negb obind] in *; [apply IH; auto|].
      rewrite (F s) by now left.
      destruct (add_counts f s 1 nbins L (W s (or_introl eq_refl))) as (f1 & E & L1 & E1). rewrite E. cbn [obind].
      destruct (IH W' f1 L1) as (f' & E' & L' & A); [intros y Hy; apply F; now right|].
      exists f'. repeat split; auto. intros b. rewrite A, E1. simpl. lra. }
  intros F. destruct (G (repeat 0 nbins)) as (f & E & L & A); auto; [apply repeat_length|].
  exists f. repeat split; auto. intros b. rewrite A, nth_repeat. lra.
Qed.

Lemma free_indices_all refs : forall n i, (i + n <= length refs)%nat -> exists p, free_indices refs i (repeat true n) = Ok p.
Proof.
  induction n as [|n IH]; intros i H; simpl; [eauto|].
  destruct (nth_error refs i) as [r|] eqn:E; [|apply nth_error_None in E; lia].
  unfold vec_get. rewrite E. simpl. destruct (IH (S i)) as (p & ->); [lia|]. simpl. eauto.
Qed.

Lemma setCache_ok k : length (k_all k) = length (k_refs k) ->
  exists k', setCache k = Ok k' /\ same_base k k' /\ k_test k' = None.
Proof.
  intros L. unfold setCache, refactorModel.
  destruct (refactor_ok (k_all k) (k_fixed k) (repeat 1 (length (k_all k))) (repeat true (length (k_all k))) None) as (fo & E & _).
  { now rewrite repeat_length. } { now rewrite repeat_length. }
  { clear L. induction (k_all k) as [|a l IHl]; simpl; constructor; [discriminate|exact IHl]. }
  rewrite E. cbn [obind]. destruct (free_indices_all (k_refs k) (length (k_all k)) 0) as (p & ->); [lia|]. cbn [obind].
  eexists. split; [reflexivity|]. split; [|reflexivity]. repeat split.
Qed.

Lemma get_source_in srcs s : NoDup (map s_name srcs) -> In s srcs -> get_source srcs (s_name s) = Some s.
Proof.
  unfold get_source. intros N H. destruct (find (fun s' => Z.eqb (s_name s') (s_name s)) srcs) as [s'|] eqn:E.
  - apply find_some in E. destruct E as [H' E]. apply Z.eqb_eq in E. f_equal. now apply (nodup_same srcs).
  - exfalso. apply (find_none _ _ E) in H. simpl in H. now rewrite Z.eqb_refl in H.
Qed.

Lemma status_spec srcs : NoDup (map s_name srcs) -> forall tm pre,
  (forall p, In p tm -> In (fst p) srcs /\ snd p <> 0) ->
  get_status_and_scales srcs (pre ++ map snd tm) (length pre) (map tname tm) = Ok (map tfree tm, map tscale tm).
Proof.
  intros N. induction tm as [|p tm IH]; intros pre I; [reflexivity|].
  destruct (I p (or_introl eq_refl)) as [Hp Hr]. cbn [map get_status_and_scales]. unfold tname at 1.
  rewrite get_source_in by auto. unfold vec_get at 1. rewrite (nth_error_app2 pre), Nat.sub_diag by lia. cbn [nth_error obind].
  destruct (Reqb_spec (snd p) 0) as [|_]; [contradiction|].
  specialize (IH (pre ++ [snd p])). rewrite app_length, Nat.add_1_r in IH. rewrite <- app_assoc in IH. simpl in IH.
  rewrite IH by (intros q H; apply I; now right). reflexivity.
Qed.

Lemma refactor_from_ok nbins test srcs k tm : inv nbins test srcs k tm ->
  exists k' tail, refactor_from_model srcs k = Ok k' /\ same_base k k' /\ cur k' tm tail /\ k_pars k' = k_init k' /\
    (tail = match k_test k with Some _ => [(k_target k, 0)] | None => [] end).
Proof.
  intros I. unfold refactor_from_model. rewrite (i_refs _ _ _ _ _ I), (i_names _ _ _ _ _ I).
  pose proof (status_spec srcs (proj1 (i_wf _ _ _ _ _ I)) tm []) as Q. simpl in Q. rewrite Q.
  2:{ intros p H. destruct (i_in _ _ _ _ _ I p H) as (A & _ & B). auto. }
  cbn [obind fst snd].
  destruct (refactor_cur nbins test srcs k tm (match k_test k with Some _ => true | None => false end) I) as (k' & tail & E & B & C & P & T).
  exists k', tail. split; [exact E|]. split; [exact B|]. split; [exact C|]. split; [exact P|]. rewrite T. destruct (k_test k); reflexivity.
Qed.

Lemma same_base_trans k k' k'' : same_base k k' -> same_base k' k'' -> same_base k k''.
Proof. intros (?&?&?&?&?) (?&?&?&?&?). repeat split; congruence. Qed.

Lemma map_id_in {A} (f : A -> A) l : (forall x, In x l -> f x = x) -> map f l = l.
Proof. induction l; simpl; intros H; auto. f_equal; auto. Qed.

Lemma construct_ok nbins test unitRef srcs : well_formed nbins srcs -> nonzero_norms test srcs ->
  exists k tm, construct nbins test unitRef srcs = Ok k /\ inv nbins test srcs k tm /\ cur k tm [] /\ k_pars k = k_init k /\
    k_names k = map s_name (filter (fun s => negb (Z.eqb (s_name s) test) && s_free s)%bool srcs) /\
    length (k_target k) = nbins /\ (forall b, nth b (k_target k) 0 = Rsum (map (fun s => nth b (s_shape s) 0) (filter (is_test test) srcs))).
Proof.
  intros [N W] Z. unfold construct, build_from_model, extractModels. simpl.
  destruct (extract_spec nbins test unitRef srcs {| x_names := []; x_templates := []; x_fixed := repeat 0 nbins; x_test := repeat 0 nbins; x_refs := [] |})
    as (x & E & A1 & A2 & A3 & A4 & A5 & A6 & A7); auto; try (simpl; apply repeat_length).
  simpl in A1, A2, A3, A6, A7.
  assert (VR : vec_resize ([] : list R) nbins 0 = repeat 0 nbins).
  { unfold vec_resize. rewrite firstn_nil. simpl. now rewrite Nat.sub_0_r. }
  rewrite VR, E. cbn [obind].
  set (tm := map (fun s => (s, refval unitRef s)) (filter (is_template test) srcs)) in *.
  match goal with |- context [setCache ?c] => set (k0 := c) end.
  assert (NM : map tname tm = map s_name (filter (is_template test) srcs)) by (unfold tm; rewrite map_map; reflexivity).
  assert (I : inv nbins test srcs k0 tm).
  { constructor; simpl; auto.
    - split; auto.
    - intros p H. unfold tm in H. apply in_map_iff in H. destruct H as (s & <- & H). apply filter_In in H. destruct H as [H H'].
      unfold is_template in H'. apply Bool.andb_true_iff in H'. destruct H' as [H1 H2]. apply Bool.negb_true_iff, Z.eqb_neq in H1.
      split; auto. split; auto. simpl. unfold refval. destruct (unitRef && Rltb 0 (s_norm s))%bool; [lra|]. apply Z; auto.
    - rewrite NM. clear - N. induction srcs as [|s l IH]; simpl in *; [constructor|]. inversion N; subst.
      destruct (is_template test s); auto. simpl. constructor; auto. intros H. apply H1. apply in_map_iff in H.
      destruct H as (y & Ey & Hy). apply filter_In in Hy. apply in_map_iff. exists y. tauto.
    - intros b. rewrite A6, nth_repeat, Rplus_0_l. do 2 f_equal. rewrite NM. apply filter_ext_in. intros s Hs. unfold is_fixed.
      destruct (Z.eqb (s_name s) test) eqn:Et; auto. simpl. f_equal.
      destruct (s_free s) eqn:Ef.
      + symmetry. apply existsb_exists. exists (s_name s). split; [|apply Z.eqb_refl]. apply in_map. apply filter_In. split; auto.
        unfold is_template. now rewrite Et, Ef.
      + symmetry. apply Bool.not_true_iff_false. rewrite existsb_exists. intros (z & Hz & Ez). apply Z.eqb_eq in Ez. subst z.
        apply in_map_iff in Hz. destruct Hz as (s' & E' & Hs'). apply filter_In in Hs'. destruct Hs' as [Hs' Hf].
        assert (s' = s) by (apply (nodup_same srcs); auto). subst. unfold is_template in Hf. rewrite Et, Ef in Hf. discriminate.
    - intros s Hs. apply in_others in Hs. destruct Hs as (H1 & H2 & H3). destruct (s_free s) eqn:Ef; auto. exfalso. apply H3.
      rewrite NM. apply in_map. apply filter_In. split; auto. unfold is_template. rewrite Ef.
      apply Z.eqb_neq in H2. now rewrite H2. }
  destruct (setCache_ok k0) as (k1 & E1 & B1 & T1).
  { rewrite (i_all _ _ _ _ _ I), (i_refs _ _ _ _ _ I), !map_length. reflexivity. }
  rewrite E1. cbn [obind]. pose proof (inv_base _ _ _ _ _ _ B1 I) as I1.
  destruct (refactor_from_ok _ _ _ _ _ I1) as (k2 & tail & E2 & B2 & C2 & P2 & T2).
  rewrite T1 in T2. subst tail. exists k2, tm. split; [exact E2|]. split; [exact (inv_base _ _ _ _ _ _ B2 I1)|]. split; auto. split; auto.
  destruct B1 as (Q1 & _ & _ & Q2 & _), B2 as (R1 & _ & _ & R2 & _). rewrite R1, Q1, R2, Q2. simpl.
  split; [rewrite A1; exact NM|]. split; auto. intros b. rewrite A7, nth_repeat. lra.
Qed.

(** ** Updates *)
Definition look (srcs : list source) (p : source * R) : source * R :=
  (match get_source srcs (tname p) with Some s => s | None => fst p end, snd p).

Lemma get_source_name srcs n s : get_source srcs n = Some s -> In s srcs /\ s_name s = n.
Proof. unfold get_source. intros E. apply find_some in E. destruct E as [H E]. apply Z.eqb_eq in E. auto. Qed.

Lemma position_of : forall tm p, NoDup (map tname tm) -> In p tm ->
  exists i, getTemplateIndex (map tname tm) (tname p) = Some i /\ nth_error tm i = Some p.
Proof.
  induction tm as [|q tm IH]; simpl; intros p N H; [contradiction|]. inversion N; subst.
  destruct H as [->|H].
  - rewrite Z.eqb_refl. exists 0%nat. auto.
  - assert (Ne : tname q <> tname p) by (intros E; apply H2; rewrite E; now apply in_map).
    apply Z.eqb_neq in Ne. rewrite Ne. destruct (IH p H3 H) as (i & E & E'). rewrite E. exists (S i). auto.
Qed.

Lemma upd_map_named {B} : forall tm (g : source * R -> B) i p (x : B), NoDup (map tname tm) -> nth_error tm i = Some p ->
  upd (map g tm) i x = map (fun q => if Z.eqb (tname q) (tname p) then x else g q) tm.
Proof.
  induction tm as [|q tm IH]; intros g [|i] p x N E; simpl in *; try discriminate.
  - injection E as ->. rewrite Z.eqb_refl. f_equal. inversion N; subst. apply map_ext_in. intros q Hq.
    destruct (Z.eqb (tname q) (tname p)) eqn:Q; auto. exfalso. apply Z.eqb_eq in Q. apply H1. rewrite <- Q. now apply in_map.
  - inversion N; subst. rewrite (IH g i p x H2 E). f_equal.
    destruct (Z.eqb (tname q) (tname p)) eqn:Q; auto. exfalso. apply Z.eqb_eq in Q. apply H1. rewrite Q. apply in_map.
    eapply nth_error_In; eauto.
Qed.

Definition same_but_all (k k' : cache) : Prop :=
  k_names k' = k_names k /\ k_fixed k' = k_fixed k /\ k_target k' = k_target k /\ k_refs k' = k_refs k.

Lemma update_one srcs tm k g p : NoDup (map tname tm) -> k_names k = map tname tm -> k_refs k = map snd tm -> k_all k = map g tm ->
  In p tm -> (exists s, get_source srcs (tname p) = Some s /\ 0 < s_norm s) ->
  exists k', update_template_for_source srcs k (tname p) = Ok k' /\ same_but_all k k' /\
    k_all k' = map (fun q => if Z.eqb (tname q) (tname p) then tmpl (look srcs q) else g q) tm.
Proof.
  intros N En Er Ea Hp (s & Es & Hs). unfold update_template_for_source. rewrite En.
  destruct (position_of tm p N Hp) as (i & Ei & Ei'). rewrite Ei, Es, Ea, Er. unfold vec_get.
  rewrite (map_nth_error g i tm Ei'), (map_nth_error snd i tm Ei'). cbn [obind].
  eexists. split; [reflexivity|]. split; [repeat split; auto|]. cbn [k_all].
  rewrite (upd_map_named tm g i p _ N Ei'). apply map_ext_in. intros q Hq.
  destruct (Z.eqb (tname q) (tname p)) eqn:Q; auto. apply Z.eqb_eq in Q.
  assert (q = p).
  { clear - N Hq Hp Q. induction tm as [|x l IH]; simpl in *; [contradiction|]. inversion N; subst.
    destruct Hq as [->|Hq], Hp as [->|Hp]; auto.
    - exfalso. apply H1. rewrite Q. now apply in_map. - exfalso. apply H1. rewrite <- Q. now apply in_map. }
  subst q. unfold look. rewrite Es. unfold tmpl. cbn [fst snd].
  destruct (Rltb_spec 0 (s_norm s)) as [_|F]; [|contradiction].
  unfold scaled, counts. rewrite map_map. apply map_ext. intros x. field. lra.
Qed.

Lemma update_many srcs tm : NoDup (map tname tm) -> forall changed k g,
  k_names k = map tname tm -> k_refs k = map snd tm -> k_all k = map g tm -> incl changed (map tname tm) ->
  (forall n, In n changed -> exists s, get_source srcs n = Some s /\ 0 < s_norm s) ->
  exists k', mfold (update_template_for_source srcs) changed k = Ok k' /\ same_but_all k k' /\
    k_all k' = map (fun q => if existsb (Z.eqb (tname q)) changed then tmpl (look srcs q) else g q) tm.
Proof.
  intros N. induction changed as [|n changed IH]; intros k g En Er Ea Hi Hs.
  - exists k. split; [reflexivity|]. split; [repeat split|]. simpl. exact Ea.
  - assert (Hn : In n (map tname tm)) by (apply Hi; now left). apply in_map_iff in Hn. destruct Hn as (p & <- & Hp).
    destruct (update_one srcs tm k g p N En Er Ea Hp (Hs _ (or_introl eq_refl))) as (k1 & E1 & (B1 & B2 & B3 & B4) & A1).
    cbn [mfold]. rewrite E1. cbn [obind].
    destruct (IH k1 _ (eq_trans B1 En) (eq_trans B4 Er) A1) as (k2 & E2 & (D1 & D2 & D3 & D4) & A2).
    { intros m Hm. apply Hi. now right. } { intros m Hm. apply Hs. now right. }
    exists k2. split; [exact E2|]. split; [repeat split; congruence|]. rewrite A2. apply map_ext. intros q. cbn [existsb].
    destruct (existsb (Z.eqb (tname q)) changed), (Z.eqb (tname q) (tname p)); reflexivity.
Qed.

Lemma tname_look srcs p : tname (look srcs p) = tname p.
Proof. unfold look. destruct (get_source srcs (tname p)) eqn:E; [|reflexivity]. apply get_source_name in E. apply E. Qed.

Lemma update_ok nbins test unitRef srcs srcs' a changed k tm tail :
  inv nbins test srcs k tm -> cur k tm tail -> covered nbins test (k_names k) srcs srcs' a changed -> positive_norms srcs' changed ->
  exists k' tm' tail', update_with_action nbins test unitRef srcs' a changed k = Ok k' /\ inv nbins test srcs' k' tm' /\ cur k' tm' tail' /\
    k_names k' = k_names k /\ k_refs k' = k_refs k /\ k_target k' = k_target k /\
    (if (a_fixed a || a_free a || a_refactor a || a_prior a)%bool
     then k_pars k' = k_init k' /\ tail' = (if (a_fixed a || a_free a)%bool then [] else match k_test k with Some _ => [(k_target k, 0)] | None => [] end)
     else k' = k).
Proof.
  intros I C (W & Ar & Of & Ofx & Inc & Tm & Arf) Pos. destruct W as [N W].
  unfold update_with_action. rewrite Ar. rewrite (i_names _ _ _ _ _ I) in *.
  assert (LK : forall p, In p tm -> exists s', look srcs' p = (s', snd p) /\ In s' srcs' /\ s_name s' = tname p /\
     (a_free a = true /\ In (tname p) changed \/ s_shape s' = s_shape (fst p)) /\
     (a_refactor a = false -> s_norm s' = s_norm (fst p) /\ s_free s' = s_free (fst p))).
  { intros p Hp. destruct (i_in _ _ _ _ _ I p Hp) as (H1 & _ & _).
    destruct (Tm (fst p) H1) as (s' & Q1 & Q2 & Q3 & Q4); [now apply (in_map tname)|].
    exists s'. repeat split; auto; try apply Q4; auto. unfold look. unfold tname. rewrite <- Q2. now rewrite get_source_in by auto. }
  set (tm' := map (look srcs') tm).
  assert (NM : map tname tm' = map tname tm) by (unfold tm'; rewrite map_map; apply map_ext; intros; apply tname_look).
  assert (SN : map snd tm' = map snd tm) by (unfold tm'; rewrite map_map; reflexivity).
  (* the fixed sources *)
  assert (S1 : exists k1, (if a_fixed a then update_fixed_from_model nbins test srcs' k else Ok k) = Ok k1 /\
     k_names k1 = map tname tm /\ k_refs k1 = map snd tm /\ k_all k1 = map tmpl tm /\ k_target k1 = k_target k /\ k_test k1 = k_test k /\
     length (k_fixed k1) = nbins /\ (forall b, nth b (k_fixed k1) 0 = Rsum (map (fun s => count_in s b) (others test (map tname tm) srcs'))) /\
     (a_fixed a = false -> k1 = k)).
  { destruct (a_fixed a) eqn:Af.
    - unfold update_fixed_from_model. rewrite (i_names _ _ _ _ _ I).
      destruct (extract_fixed_spec nbins test (map tname tm) srcs' W Of) as (f & E & L & F). rewrite E. cbn [obind].
      eexists. split; [reflexivity|]. cbn. repeat split; auto; try (apply I); try discriminate.
    - exists k. split; [reflexivity|]. repeat split; try apply I. intros b. rewrite (Ofx eq_refl). apply I. }
  destruct S1 as (k1 & E1 & N1 & R1 & A1 & G1 & T1 & L1 & F1 & U1). rewrite E1. cbn [obind].
  (* the templates *)
  assert (S2 : exists k2, (if a_free a then mfold (update_template_for_source srcs') changed k1 else Ok k1) = Ok k2 /\
     same_but_all k1 k2 /\ k_all k2 = map tmpl tm' /\ (a_free a = false -> k2 = k1)).
  { destruct (a_free a) eqn:Af.
    - destruct (update_many srcs' tm (i_nodup _ _ _ _ _ I) changed k1 tmpl N1 R1 A1 Inc) as (k2 & E2 & B2 & A2).
      { intros n Hn. pose proof (Inc n Hn) as H. apply in_map_iff in H. destruct H as (p & <- & Hp).
        destruct (LK p Hp) as (s' & Q1 & Q2 & Q3 & _). exists s'. rewrite <- Q3. split; [now apply get_source_in|].
        apply Pos; auto. now rewrite Q3. }
      exists k2. split; [exact E2|]. split; [exact B2|]. split; [|discriminate].
      rewrite A2. unfold tm'. rewrite map_map. apply map_ext_in. intros p Hp.
      destruct (existsb (Z.eqb (tname p)) changed) eqn:Ex; [reflexivity|].
      destruct (LK p Hp) as (s' & Q1 & _ & _ & [[_ Q]|Q] & _).
      + exfalso. apply Bool.not_true_iff_false in Ex. apply Ex. apply existsb_exists. exists (tname p). split; auto. apply Z.eqb_refl.
      + rewrite Q1. unfold tmpl. simpl. now rewrite Q.
    - exists k1. split; [reflexivity|]. split; [repeat split|]. split; auto. rewrite A1. unfold tm'. rewrite map_map.
      apply map_ext_in. intros p Hp. destruct (LK p Hp) as (s' & Q1 & _ & _ & [[Q _]|Q] & _); [discriminate|].
      rewrite Q1. unfold tmpl. simpl. now rewrite Q. }
  destruct S2 as (k2 & E2 & (B1 & B2 & B3 & B4) & A2 & U2). rewrite E2. cbn [obind].
  assert (I2 : inv nbins test srcs' k2 tm').
  { constructor.
    - split; auto.
    - now rewrite B1, N1, NM.
    - exact A2.
    - now rewrite B4, R1, SN.
    - intros q Hq. unfold tm' in Hq. apply in_map_iff in Hq. destruct Hq as (p & <- & Hp).
      destruct (LK p Hp) as (s' & Q1 & Q2 & _). destruct (i_in _ _ _ _ _ I p Hp) as (_ & H2 & H3).
      rewrite tname_look. rewrite Q1. simpl. auto.
    - rewrite NM. apply I.
    - now rewrite B2.
    - intros b. rewrite B2, NM. apply F1.
    - rewrite NM. exact Of. }
  destruct (a_fixed a || a_free a)%bool eqn:Eff.
  - (* setCache, then refactor *)
    assert (Rf : a_refactor a = true) by (apply Arf; apply Bool.orb_true_iff; exact Eff). rewrite Rf. cbn [orb].
    destruct (setCache_ok k2) as (k3 & E3 & D3 & T3).
    { rewrite (i_all _ _ _ _ _ I2), (i_refs _ _ _ _ _ I2), !map_length. reflexivity. }
    rewrite E3. cbn [obind]. pose proof (inv_base _ _ _ _ _ _ D3 I2) as I3.
    destruct (refactor_from_ok _ _ _ _ _ I3) as (k4 & tail' & E4 & D4 & C4 & P4 & T4). rewrite T3 in T4. subst tail'.
    exists k4, tm', []. split; [exact E4|]. split; [exact (inv_base _ _ _ _ _ _ D4 I3)|]. split; [exact C4|].
    destruct D3 as (X1 & _ & _ & X4 & X5), D4 as (Y1 & _ & _ & Y4 & Y5).
    split; [congruence|]. split; [rewrite Y5, X5, B4, R1; symmetry; apply I|]. split; [congruence|]. auto.
  - apply Bool.orb_false_iff in Eff. destruct Eff as [Ef1 Ef2]. rewrite (U1 Ef1) in *. rewrite (U2 Ef2) in *. cbn [obind orb].
    destruct (a_refactor a || a_prior a)%bool eqn:Erp.
    + destruct (refactor_from_ok _ _ _ _ _ I2) as (k4 & tail' & E4 & D4 & C4 & P4 & T4).
      exists k4, tm', tail'. split; [exact E4|]. split; [exact (inv_base _ _ _ _ _ _ D4 I2)|]. split; [exact C4|].
      destruct D4 as (Y1 & _ & _ & Y4 & Y5). split; [congruence|]. split; [congruence|]. split; [congruence|]. auto.
    + apply Bool.orb_false_iff in Erp. destruct Erp as [Er _].
      assert (Q : tm' = tm).
      { apply map_id_in. intros p Hp. destruct (LK p Hp) as (s' & Q1 & Q2 & Q3 & [[Q4 _]|Q4] & Q5); [congruence|].
        destruct (Q5 Er) as [Q6 Q7]. rewrite Q1. destruct p as [s r]. simpl in *. f_equal. destruct s, s'. unfold tname in *. simpl in *. congruence. }
      exists k, tm, tail. rewrite Q in I2. split; [reflexivity|]. split; [exact I2|]. split; [exact C|]. auto.
Qed.

(** ** The test source *)
Lemma inv_same nbins test srcs k k' tm : k_names k' = k_names k -> k_all k' = k_all k -> k_fixed k' = k_fixed k -> k_refs k' = k_refs k ->
  inv nbins test srcs k tm -> inv nbins test srcs k' tm.
Proof. intros E1 E3 E4 E5 I. destruct I. constructor; congruence || auto. - now rewrite E4. Qed.

Lemma cov_extend_dim m n : length m = n -> (forall r, In r m -> length r = n) ->
  length (cov_extend m (S n)) = S n /\ forall r, In r (cov_extend m (S n)) -> length r = S n.
Proof.
  intros L Rw. unfold cov_extend. rewrite L. replace (S n - n)%nat with 1%nat by lia. split.
  - rewrite app_length, map_length, L. simpl. lia.
  - intros r H. apply in_app_or in H. destruct H as [H|H].
    + apply in_map_iff in H. destruct H as (r' & <- & H). rewrite app_length, repeat_length, (Rw r' H). lia.
    + simpl in H. destruct H as [<-|[]]. simpl. now rewrite repeat_length.
Qed.

Lemma add_ok k tm tail norm : cur k tm tail ->
  exists tail', cur (addTestSourceToCurrent norm k) tm tail' /\ k_test (addTestSourceToCurrent norm k) = Some (length (filter tfree tm)).
Proof.
  intros C. unfold addTestSourceToCurrent. pose proof (c_tail _ _ _ C) as T. destruct T as [[T ->]|(x & T & ->)]; rewrite T; cbv zeta.
  - exists [(k_target k, norm)].
    pose proof (c_models _ _ _ C) as M. pose proof (c_init _ _ _ C) as In0. simpl in M, In0. rewrite app_nil_r in M, In0.
    assert (Ln : length (k_grad k ++ [0]) = S (length (k_models k))) by (rewrite app_length; simpl; rewrite (c_grad _ _ _ C); lia).
    assert (Lm : length (k_models k) = length (filter tfree tm)) by (rewrite M; apply map_length).
    destruct (cov_extend_dim (k_cov k) (length (k_models k)) (c_cov _ _ _ C) (c_rows _ _ _ C)) as [Q1 Q2].
    split; [|simpl; rewrite Ln; f_equal; lia].
    constructor; unfold with_fit; simpl; try apply C.
    + right. exists norm. split; [simpl; rewrite Ln; f_equal; lia|reflexivity].
    + now rewrite M.
    + now rewrite In0.
    + rewrite In0, M, !app_length, !map_length. reflexivity.
    + rewrite Ln, app_length. simpl. lia.
    + rewrite Ln, Q1, app_length. simpl. lia.
    + intros r H. rewrite Ln in H. rewrite (Q2 r H), app_length. simpl. lia.
  - exists [(k_target k, x)]. auto.
Qed.

Lemma remove_ok k tm tail : cur k tm tail ->
  exists k', removeTestSourceFromCurrent k = Ok k' /\ cur k' tm [] /\ k_test k' = None /\ same_base k k' /\
    k_curFixed k' = k_curFixed k /\ k_indices k' = k_indices k /\ k_free k' = k_free k.
Proof.
  intros C. unfold removeTestSourceFromCurrent. pose proof (c_tail _ _ _ C) as T. destruct T as [[T ->]|(x & T & ->)]; rewrite T.
  - exists k. split; [reflexivity|]. split; [exact C|]. split; [exact T|]. repeat split.
  - pose proof (c_models _ _ _ C) as M. pose proof (c_init _ _ _ C) as In0. simpl in M, In0.
    destruct (k_models k) as [|m0 ms] eqn:Em; [destruct (map tmpl (filter tfree tm)); discriminate|]. rewrite <- Em in *.
    assert (Ln : removelast (k_models k) = map tmpl (filter tfree tm)) by (rewrite M; apply removelast_last).
    rewrite Ln, map_length. set (n := length (filter tfree tm)).
    assert (Lm : length (k_models k) = S n) by (rewrite M, app_length, map_length; simpl; unfold n; lia).
    assert (Li : length (k_init k) = S n) by (rewrite In0, app_length, map_length; simpl; unfold n; lia).
    rewrite Li, (c_pars _ _ _ C), (c_cov _ _ _ C), (c_grad _ _ _ C), Lm.
    rewrite (proj2 (Nat.leb_le n (S n))) by lia. cbn [andb].
    eexists. split; [reflexivity|]. split; [|repeat split].
    constructor; unfold with_fit; simpl; try apply C.
    + left. auto.
    + now rewrite app_nil_r.
    + rewrite In0, app_nil_r. rewrite firstn_app. rewrite map_length. fold n. rewrite Nat.sub_diag. simpl. rewrite app_nil_r.
      apply firstn_all2. rewrite map_length. unfold n. lia.
    + rewrite firstn_length, (c_pars _ _ _ C), Lm, map_length. fold n. lia.
    + rewrite firstn_length, (c_grad _ _ _ C), Lm, map_length. fold n. lia.
    + unfold cov_sub. rewrite map_length, firstn_length, (c_cov _ _ _ C), Lm, map_length. fold n. lia.
    + intros r H. unfold cov_sub in H. apply in_map_iff in H. destruct H as (r' & <- & H).
      assert (Hr : In r' (k_cov k)) by (rewrite <- (firstn_skipn n); apply in_or_app; now left).
      rewrite firstn_length, (c_rows _ _ _ C r' Hr), Lm, map_length. fold n. lia.
Qed.

Lemma set_ok k tm tail m : cur k tm tail ->
  exists k' tail', setTestSource m k = Ok k' /\ cur k' tm tail' /\ k_test k' = Some (length (filter tfree tm)) /\ k_target k' = m /\
    k_names k' = k_names k /\ k_all k' = k_all k /\ k_fixed k' = k_fixed k /\ k_refs k' = k_refs k.
Proof.
  intros C. unfold setTestSource. destruct (remove_ok k tm tail C) as (k1 & E & C1 & T1 & (B1 & B2 & B3 & B4 & B5) & _). rewrite E. cbn [obind].
  match goal with |- context [addTestSourceToCurrent 0 ?c] => set (k2 := c) end.
  assert (C2 : cur k2 tm []).
  { unfold k2. constructor; simpl; try apply C1. left. auto. }
  destruct (add_ok k2 tm [] 0 C2) as (tail' & C3 & T3).
  exists (addTestSourceToCurrent 0 k2), tail'. split; [reflexivity|]. split; [exact C3|]. split; [exact T3|].
  unfold addTestSourceToCurrent. unfold k2 at 1 3 5 7 9. simpl. rewrite T1. unfold with_fit. simpl. auto.
Qed.

(** A cache can only be built when no normalisation it divides by is zero. *)
Lemma extract_test test unitRef : forall srcs x x', mfold (extract_step test unitRef) srcs x = Ok x' ->
  forall s, In s srcs -> s_name s = test -> s_norm s <> 0.
Proof.
  induction srcs as [|s0 srcs IH]; intros x x' E s H Hn; [contradiction|]. cbn [mfold] in E.
  destruct (extract_step test unitRef x s0) as [x1| |] eqn:E1; try discriminate. cbn [obind] in E.
  destruct H as [->|H]; [|eapply IH; eauto].
  unfold extract_step in E1. apply Z.eqb_eq in Hn. rewrite Hn in E1.
  destruct (Reqb_spec (s_norm s) 0) as [|Q]; [discriminate|exact Q].
Qed.

Lemma status_nonzero srcs : forall tm pre p, get_status_and_scales srcs (pre ++ map snd tm) (length pre) (map tname tm) = Ok p ->
  forall q, In q tm -> snd q <> 0.
Proof.
  induction tm as [|p0 tm IH]; intros pre p E q H; [contradiction|]. cbn [map get_status_and_scales] in E.
  destruct (get_source srcs (tname p0)) as [s|]; [|discriminate].
  unfold vec_get at 1 in E. rewrite (nth_error_app2 pre), Nat.sub_diag in E by lia. cbn [nth_error obind] in E.
  destruct (Reqb_spec (snd p0) 0) as [|Q]; [discriminate|].
  destruct H as [<-|H]; [exact Q|].
  specialize (IH (pre ++ [snd p0])). rewrite app_length, Nat.add_1_r in IH. rewrite <- app_assoc in IH. simpl in IH.
  destruct (get_status_and_scales srcs (pre ++ snd p0 :: map snd tm) (S (length pre)) (map tname tm)) as [p'| |]; try discriminate.
  eapply IH; eauto.
Qed.

Lemma construct_needs nbins test unitRef srcs k : well_formed nbins srcs -> construct nbins test unitRef srcs = Ok k -> nonzero_norms test srcs.
Proof.
  intros [N W] E. unfold construct, build_from_model, extractModels in E. simpl in E.
  assert (VR : vec_resize ([] : list R) nbins 0 = repeat 0 nbins).
  { unfold vec_resize. rewrite firstn_nil. simpl. now rewrite Nat.sub_0_r. }
  rewrite VR in E.
  destruct (mfold (extract_step test unitRef) srcs _) as [x| |] eqn:Ex in E; try discriminate.
  pose proof (extract_test _ _ _ _ _ Ex) as Nt.
  destruct (extract_spec nbins test unitRef srcs {| x_names := []; x_templates := []; x_fixed := repeat 0 nbins; x_test := repeat 0 nbins; x_refs := [] |})
    as (x' & E' & A1 & A2 & A3 & _); auto; try (simpl; apply repeat_length).
  simpl in E', A1, A2, A3. rewrite Ex in E'. injection E' as <-. cbn [obind] in E.
  match goal with H : context [setCache ?c] |- _ => destruct (setCache_ok c) as (k1 & E1 & B1 & _) end.
  { simpl. rewrite A2, A3, !map_length. reflexivity. }
  rewrite E1 in E. cbn [obind] in E. unfold refactor_from_model in E.
  destruct B1 as (B1 & _ & _ & _ & B5). rewrite B1, B5 in E. simpl in E. rewrite A1, A3 in E.
  destruct (get_status_and_scales srcs _ 0 _) as [p| |] eqn:Es in E; try discriminate.
  pose proof (status_nonzero srcs _ [] _ Es) as Q.
  intros s Hs [Hf|Ht]; [|apply Nt; auto].
  destruct (Z.eq_dec (s_name s) test) as [Ht|Ht]; [apply Nt; auto|].
  intros Zr. apply (Q (s, refval unitRef s)).
  - apply (in_map (fun s => (s, refval unitRef s))). apply filter_In. split; auto. unfold is_template. rewrite Hf.
    apply Z.eqb_neq in Ht. now rewrite Ht.
  - simpl. unfold refval. rewrite Zr. destruct (Rltb_spec 0 0) as [L|_]; [lra|]. now rewrite Bool.andb_false_r.
Qed.

Lemma history_inv nbins test unitRef srcs k : history nbins test unitRef srcs k ->
  exists tm tail, inv nbins test srcs k tm /\ cur k tm tail.
Proof.
  intros H. induction H as [srcs k W E|srcs k srcs' a changed k' H IH Cv P E|srcs k pars grad cov H IH L1 L2 L3 L4|srcs k norm H IH|srcs k k' H IH E|srcs k m k' H IH E].
  - pose proof (construct_needs _ _ _ _ _ W E) as Z.
    destruct (construct_ok nbins test unitRef srcs W Z) as (k' & tm & E' & I & C & _). rewrite E in E'. injection E' as <-. eauto.
  - destruct IH as (tm & tail & I & C).
    destruct (update_ok nbins test unitRef srcs srcs' a changed k tm tail I C Cv P) as (k1 & tm' & tail' & E' & I' & C' & _).
    rewrite E in E'. injection E' as <-. eauto.
  - destruct IH as (tm & tail & I & C). exists tm, tail. split; [eapply inv_same; [..|exact I]; reflexivity|].
    destruct C. constructor; unfold fitCurrent, with_fit; simpl; auto.
  - destruct IH as (tm & tail & I & C). destruct (add_ok k tm tail norm C) as (tail' & C' & _). exists tm, tail'. split; [|exact C'].
    unfold addTestSourceToCurrent. destruct (k_test k); [exact I|]. eapply inv_same; [..|exact I]; reflexivity.
  - destruct IH as (tm & tail & I & C). destruct (remove_ok k tm tail C) as (k1 & E' & C' & _ & B & _). rewrite E in E'. injection E' as <-.
    exists tm, []. split; [exact (inv_base _ _ _ _ _ _ B I)|exact C'].
  - destruct IH as (tm & tail & I & C). destruct (set_ok k tm tail m C) as (k1 & tail' & E' & C' & _ & _ & B1 & B2 & B3 & B4).
    rewrite E in E'. injection E' as <-. exists tm, tail'. split; [eapply inv_same; [..|exact I]; auto|exact C'].
Qed.

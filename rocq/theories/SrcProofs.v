From Verif Require Import Base SMap SrcModel SrcSpec.
From Coq Require Import Sorted Permutation.
Local Open Scope Z_scope.

Definition synced (m : model) : Prop := m = syncParams m.
Definition wf_model (m : model) : Prop := sorted (m_src m) /\ Forall (fun p => fst p = s_name (snd p)) (m_src m).

Lemma synced_sync m : synced (syncParams m).
Proof. reflexivity. Qed.
Lemma synced_par m : synced m -> m_par m = source_params m.
Proof. unfold synced. intros H. rewrite H at 1. reflexivity. Qed.

Lemma Forall_minsert {P : Z * source -> Prop} k v m : Forall P m -> P (k, v) -> Forall P (minsert k v m).
Proof.
  intros H Hp. induction H as [|[k' v'] m Hx H IH]; simpl; auto.
  destruct (k <? k'); auto. destruct (k =? k'); auto.
Qed.
Lemma Forall_merase {P : Z * source -> Prop} k m : Forall P m -> Forall P (merase k m).
Proof. intros H. induction H as [|[k' v'] m Hx H IH]; simpl; auto. destruct (k =? k'); auto. Qed.

Lemma wf_add m s m' : wf_model m -> addSource m s = Done m' -> wf_model m' /\ synced m'.
Proof.
  intros [H1 H2] E. unfold addSource in E. destruct (mfind _ _); [discriminate|]. injection E as <-.
  split; [split|apply synced_sync]; simpl.
  - now apply sorted_insert.
  - apply Forall_minsert; auto.
Qed.
Lemma wf_del m n m' s : wf_model m -> deleteSource m n = (Done m', Some s) -> wf_model m' /\ synced m' /\ s_name s = n.
Proof.
  intros [H1 H2] E. unfold deleteSource in E. destruct (mfind n (m_src m)) eqn:Ef; [|discriminate]. injection E as <- <-.
  split; [split|split; [apply synced_sync|]]; simpl.
  - now apply sorted_erase.
  - now apply Forall_merase.
  - apply mfind_in in Ef. rewrite Forall_forall in H2. symmetry. apply (H2 _ Ef).
Qed.

Lemma flat_map_perm {A B} (f : A -> list B) l l' : Permutation l l' -> Permutation (flat_map f l) (flat_map f l').
Proof.
  induction 1; simpl; auto.
  - now apply Permutation_app_head.
  - rewrite !app_assoc. apply Permutation_app_tail. apply Permutation_app_comm.
  - eapply perm_trans; eauto.
Qed.

Lemma ids_add m s m' : addSource m s = Done m' -> Permutation (model_ids m') (s_ids s ++ model_ids m).
Proof.
  unfold addSource. destruct (mfind _ _) eqn:E; [discriminate|]. intros H. injection H as <-.
  unfold model_ids. simpl. now rewrite (flat_map_perm _ _ _ (minsert_perm _ s _ E)).
Qed.
Lemma ids_del m n m' s : deleteSource m n = (Done m', Some s) -> Permutation (model_ids m) (s_ids s ++ model_ids m').
Proof.
  unfold deleteSource. destruct (mfind n (m_src m)) eqn:E; [|discriminate]. intros H. injection H as <- <-.
  unfold model_ids. simpl. now rewrite <- (flat_map_perm _ _ _ (merase_perm _ _ _ E)).
Qed.

(** deleteAllSources *)
Lemma delete_names_all : forall l f m, sorted l -> m_src m = l ->
  exists m', delete_names m (mkeys l) f = (Done m', f ++ mvals l) /\ m_src m' = [] /\
    (l <> [] -> synced m') /\ (l = [] -> m' = m).
Proof.
  induction l as [|[k s] l IH]; intros f m Hs Hm; simpl.
  - exists m. rewrite app_nil_r. intuition congruence.
  - unfold deleteSource. rewrite Hm. cbn [mfind]. rewrite Z.eqb_refl. cbn [merase]. rewrite Z.eqb_refl.
    apply sorted_cons in Hs as [H1 H2].
    destruct (IH (f ++ [s]) (syncParams (mk_model l (m_par m) (m_freeSrcs m))) H1 eq_refl) as (m' & E & E1 & E2 & E3).
    exists m'. rewrite E, <- app_assoc. split; [reflexivity|]. split; auto. split; [|discriminate]. intros _.
    destruct l as [|p l].
    + rewrite (E3 eq_refl). apply synced_sync.
    + apply E2. discriminate.
Qed.
Lemma deleteAll_spec m : wf_model m -> (synced m) ->
  deleteAllSources m = (Done empty_model, mvals (m_src m)).
Proof.
  intros [H1 H2] Hs. unfold deleteAllSources.
  destruct (delete_names_all (m_src m) [] m H1 eq_refl) as (m' & E & E1 & E2 & E3). rewrite E. simpl.
  rewrite E1. f_equal. f_equal. unfold empty_model. f_equal.
  destruct (m_src m) as [|p l] eqn:El.
  - rewrite (E3 eq_refl). unfold synced in Hs. rewrite Hs. unfold syncParams. simpl. now rewrite El.
  - specialize (E2 ltac:(discriminate)). unfold synced in E2. rewrite E2. unfold syncParams. simpl. now rewrite E1.
Qed.
Lemma deleteAll_gen m : wf_model m -> exists m', deleteAllSources m = (Done m', mvals (m_src m)) /\ m_src m' = [] /\ m_par m' = [].
Proof.
  intros [H1 H2]. unfold deleteAllSources.
  destruct (delete_names_all (m_src m) [] m H1 eq_refl) as (m' & E & E1 & E2 & E3). rewrite E. simpl.
  eexists. split; [reflexivity|]. simpl. auto.
Qed.

(** setters keep names, identities and skeletons *)
Lemma set_vals_length sel : forall ps vs, length (fst (set_vals sel ps vs)) = length ps.
Proof.
  induction ps as [|p ps IH]; intros vs; simpl; auto. destruct (sel p).
  - destruct vs as [|v vs]; simpl; auto. destruct (_ && _); simpl; auto.
    specialize (IH vs). destruct (set_vals sel ps vs). simpl in *. lia.
  - specialize (IH vs). destruct (set_vals sel ps vs). simpl in *. lia.
Qed.
Lemma set_vals_skel sel : forall ps vs, map skeleton (fst (set_vals sel ps vs)) = map skeleton ps.
Proof.
  induction ps as [|p ps IH]; intros vs; simpl; auto. destruct (sel p).
  - destruct vs as [|v vs]; simpl; auto. destruct (_ && _); simpl; auto.
    specialize (IH vs). destruct (set_vals sel ps vs). simpl in *. f_equal; auto.
  - specialize (IH vs). destruct (set_vals sel ps vs). simpl in *. f_equal; auto.
Qed.
Definition same_frame (l l' : smap source) : Prop :=
  Forall2 (fun p q => fst p = fst q /\ s_ids (snd p) = s_ids (snd q) /\ s_name (snd p) = s_name (snd q)) l l'.
Lemma ids_with_params s ps : s_ids (with_params s ps) = s_ids s.
Proof. destruct s as [i n p [l|]]; reflexivity. Qed.
Lemma name_with_params s ps : s_name (with_params s ps) = s_name s.
Proof. destruct s; reflexivity. Qed.
Lemma params_with_params s ps : s_params (with_params s ps) = ps.
Proof. destruct s; reflexivity. Qed.
Lemma same_frame_refl l : same_frame l l.
Proof. induction l; constructor; auto. Qed.
Lemma set_all_frame sel : forall l vs, same_frame l (fst (set_all sel l vs)).
Proof.
  induction l as [|[n s] l IH]; intros vs; simpl; [constructor|].
  destruct (set_vals sel (s_params s) vs) as [ps e]. destruct e.
  - simpl. constructor; [|apply same_frame_refl]. cbn [fst snd]. rewrite ids_with_params, name_with_params. auto.
  - specialize (IH (skipn (count_sel sel (s_params s)) vs)). destruct (set_all sel l _). simpl in *.
    constructor; auto. cbn [fst snd]. rewrite ids_with_params, name_with_params. auto.
Qed.
Lemma set_params_all_frame sel : forall l qs, same_frame l (fst (set_params_all sel l qs)).
Proof.
  induction l as [|[n s] l IH]; intros qs; simpl; [constructor|].
  destruct (set_params_src (s_params s) qs _) as [ps e]. destruct e.
  - simpl. constructor; [|apply same_frame_refl]. cbn [fst snd]. rewrite ids_with_params, name_with_params. auto.
  - specialize (IH (skipn (count_sel sel (s_params s)) qs)). destruct (set_params_all sel l _). simpl in *.
    constructor; auto. cbn [fst snd]. rewrite ids_with_params, name_with_params. auto.
Qed.
Lemma frame_keys l l' : same_frame l l' -> mkeys l = mkeys l'.
Proof. induction 1 as [|p q l l' (H & _) H' IH]; simpl; auto. unfold mkeys in *. simpl. congruence. Qed.
Lemma frame_wf l l' a b a' b' : same_frame l l' -> wf_model (mk_model l a b) -> wf_model (mk_model l' a' b').
Proof.
  intros H [H1 H2]. split; simpl in *.
  - unfold sorted in *. now rewrite <- (frame_keys _ _ H).
  - clear H1. induction H as [|p q l l' (E1 & E2 & E3) H IH]; auto. inversion H2; subst. constructor; auto. congruence.
Qed.
Lemma frame_ids l l' : same_frame l l' -> flat_map (fun p : Z * source => s_ids (snd p)) l = flat_map (fun p => s_ids (snd p)) l'.
Proof. induction 1 as [|p q l l' (E1 & E2 & E3) H IH]; simpl; auto. congruence. Qed.

Lemma replace_frame n s ps m : mfind n m = Some s -> sorted m -> same_frame m (minsert n (with_params s ps) m).
Proof.
  induction m as [|[k s'] m IH]; simpl; [discriminate|]. intros E Hs. apply sorted_cons in Hs as [H1 H2].
  destruct (Z.eqb_spec n k) as [->|Hn].
  - injection E as ->. rewrite Z.ltb_irrefl. constructor; [|apply same_frame_refl]. cbn [fst snd]. now rewrite ids_with_params, name_with_params.
  - assert (k < n) as Hk.
    { rewrite Forall_forall in H2. apply H2. apply mfind_in in E. apply in_map_iff. exists (n, s). auto. }
    destruct (Z.ltb_spec n k); [lia|]. constructor; [auto|]. now apply IH.
Qed.

Lemma setter_cases m r : wf_model m ->
  (exists sel vs, r = setValues sel m vs) \/ (exists sel qs, r = setParams sel m qs) \/ (exists q b n, r = setParam m q b n) ->
  match r with
  | Done m' => wf_model m' /\ synced m' /\ model_ids m' = model_ids m
  | Threw e m' => wf_model m' /\ model_ids m' = model_ids m /\ (e <> EOutOfBounds -> e <> EParNotFound -> m' = m)
  | Undef => True
  end.
Proof.
  intros Hw [(sel & vs & ->)|[(sel & qs & ->)|(q & b & n & ->)]].
  - unfold setValues. destruct (_ =? _)%nat.
    2:{ split; auto. }
    unfold setValues_. pose proof (set_all_frame sel (m_src m) vs) as F.
    assert (forall a b, wf_model (mk_model (fst (set_all sel (m_src m) vs)) a b)) as Hf.
    { intros a b. eapply (frame_wf _ _ [] [] a b); [exact F|]. exact Hw. }
    assert (forall a b, model_ids (mk_model (fst (set_all sel (m_src m) vs)) a b) = model_ids m) as Hi.
    { intros a b. unfold model_ids. simpl. symmetry. now apply frame_ids. }
    assert (forall x e y, set_all sel (m_src m) vs = (x, Some (Threw e y)) -> e = EOutOfBounds) as He.
    { clear. generalize (m_src m). revert vs. intros vs l. revert vs. induction l as [|[n s] l IH]; intros vs x e y E; simpl in E; [discriminate|].
      assert (forall ps vs x e y, set_vals sel ps vs = (x, Some (Threw e y)) -> e = EOutOfBounds) as Hv.
      { clear. induction ps as [|p ps IH]; intros vs x e y E; simpl in E; [discriminate|]. destruct (sel p).
        - destruct vs as [|v vs]; [discriminate|]. destruct (_ && _); [|injection E; congruence].
          destruct (set_vals sel ps vs) eqn:E'. injection E as _ ->. eapply IH; eauto.
        - destruct (set_vals sel ps vs) eqn:E'. injection E as _ ->. eapply IH; eauto. }
      destruct (set_vals sel (s_params s) vs) as [ps' e'] eqn:E1. destruct e' as [e'|].
      - injection E as _ ->. eapply Hv; eauto.
      - destruct (set_all sel l _) eqn:E2. injection E as _ ->. eapply IH; eauto. }
    destruct (set_all sel (m_src m) vs) as [srcs e]. simpl in *. destruct e as [[]|].
    + exact I.
    + split; auto. split; auto. intros N. specialize (He _ _ _ eq_refl). contradiction.
    + exact I.
    + split; [apply (Hf (m_par m) (m_freeSrcs m))|]. split; [apply synced_sync|]. apply (Hi (m_par m) (m_freeSrcs m)).
  - unfold setParams. destruct (_ =? _)%nat.
    2:{ split; auto. }
    pose proof (set_params_all_frame sel (m_src m) qs) as F.
    assert (forall a b, wf_model (mk_model (fst (set_params_all sel (m_src m) qs)) a b)) as Hf.
    { intros a b. eapply (frame_wf _ _ [] [] a b); [exact F|]. exact Hw. }
    assert (forall a b, model_ids (mk_model (fst (set_params_all sel (m_src m) qs)) a b) = model_ids m) as Hi.
    { intros a b. unfold model_ids. simpl. symmetry. now apply frame_ids. }
    assert (forall x e y, set_params_all sel (m_src m) qs = (x, Some (Threw e y)) -> e = EParNotFound) as He.
    { clear. generalize (m_src m). intros l. revert qs. induction l as [|[n s] l IH]; intros qs x e y E; simpl in E; [discriminate|].
      assert (forall k ps qs x e y, set_params_src ps qs k = (x, Some (Threw e y)) -> e = EParNotFound) as Hv.
      { clear. induction k as [|k IH]; intros ps qs x e y E; simpl in E; [discriminate|].
        destruct qs as [|q qs]; [discriminate|]. destruct (set_named ps q); [eapply IH; eauto|]. injection E; congruence. }
      destruct (set_params_src (s_params s) qs _) as [ps' e'] eqn:E1. destruct e' as [e'|].
      - injection E as _ ->. eapply Hv; eauto.
      - destruct (set_params_all sel l _) eqn:E2. injection E as _ ->. eapply IH; eauto. }
    destruct (set_params_all sel (m_src m) qs) as [srcs e]. simpl in *. destruct e as [[]|].
    + exact I.
    + split; auto. split; auto. intros _ N. specialize (He _ _ _ eq_refl). contradiction.
    + exact I.
    + split; [apply (Hf (m_par m) (m_freeSrcs m))|]. split; [apply synced_sync|]. apply (Hi (m_par m) (m_freeSrcs m)).
  - unfold setParam. destruct (mfind n (m_src m)) as [s|] eqn:Ef; [|split; auto].
    destruct b; [|split; auto]. destruct (set_named (s_params s) q) as [ps|]; [|split; auto].
    destruct Hw as [H1 H2]. pose proof (replace_frame n s ps (m_src m) Ef H1) as F.
    split; [|split; [apply synced_sync|]].
    + apply (frame_wf _ _ (m_par m) (m_freeSrcs m) (m_par (syncParams (mk_model (minsert n (with_params s ps) (m_src m)) (m_par m) (m_freeSrcs m))))
         (m_freeSrcs (syncParams (mk_model (minsert n (with_params s ps) (m_src m)) (m_par m) (m_freeSrcs m))))) in F; [exact F|split; auto].
    + unfold model_ids. simpl. symmetry. now apply frame_ids.
Qed.

(** *** identities *)
Definition wf_world (w : world) : Prop :=
  wf_model (w_model w) /\ NoDup (accounted w) /\ Forall (fun i => (i < w_next w)%nat) (accounted w).

Lemma s_ids_clone k s : s_ids (s_clone k s) = map (Nat.add k) (s_ids s).
Proof.
  revert s. fix IH 1. intros [i n p [l|]]; simpl; auto. f_equal.
  induction l as [|[x s'] l IHl]; simpl; auto. rewrite map_app, IH. f_equal. exact IHl.
Qed.
Lemma name_clone k s : s_name (s_clone k s) = s_name s.
Proof. destruct s as [i n p [l|]]; reflexivity. Qed.
Lemma params_clone k s : s_params (s_clone k s) = s_params s.
Proof. destruct s as [i n p [l|]]; reflexivity. Qed.

Lemma drop_nth_perm {A} (l : list A) i x : nth_error l i = Some x -> Permutation l (x :: drop_nth l i).
Proof.
  revert i. induction l as [|y l IH]; intros [|i] E; simpl in E; try discriminate.
  - injection E as ->. reflexivity.
  - unfold drop_nth in *. simpl. rewrite (IH i E) at 1. simpl. apply perm_swap.
Qed.
Lemma drop_nth_map {A B} (f : A -> B) l i : map f (drop_nth l i) = drop_nth (map f l) i.
Proof. unfold drop_nth. now rewrite map_app, firstn_map, skipn_map. Qed.

Definition new_ids (w : world) (o : op) (e : option exn) : list nat :=
  match o, e with
  | OpNew _ _, _ => [w_next w]
  | OpAdd i true, None => match nth_error (w_caller w) i with Some s => map (Nat.add (w_next w)) (s_ids s) | None => [] end
  | _, _ => []
  end.

Lemma step_accounted w o w' e : wf_model (w_model w) -> step w o = Some (w', e) ->
  wf_model (w_model w') /\ Permutation (accounted w') (new_ids w o e ++ accounted w).
Proof.
  intros Hw E. unfold accounted.
  destruct o as [n ps|i fc|n| |q b n|vs|vs|qs|qs]; cbn [step] in E.
  - injection E as <- <-. simpl. split; auto. rewrite flat_map_app. simpl.
    rewrite <- app_assoc. simpl. rewrite app_assoc. rewrite <- Permutation_middle. now rewrite <- app_assoc.
  - destruct (nth_error (w_caller w) i) as [s|] eqn:En.
    2:{ injection E as <- <-. split; auto. simpl. rewrite En. destruct fc; reflexivity. }
    destruct fc.
    + destruct (addSource (w_model w) (s_clone (w_next w) s)) as [m|x m|] eqn:Ea; [| |discriminate]; injection E as <- <-; simpl.
      * destruct (wf_add _ _ _ Hw Ea) as [Hw' _]. split; auto. rewrite En.
        pose proof (ids_add _ _ _ Ea) as P. rewrite s_ids_clone in P. rewrite P. now rewrite <- app_assoc.
      * unfold addSource in Ea. destruct (mfind _ _); [|discriminate]. injection Ea as _ <-. auto.
    + destruct (addSource (w_model w) s) as [m|x m|] eqn:Ea; [| |discriminate]; injection E as <- <-; simpl.
      * destruct (wf_add _ _ _ Hw Ea) as [Hw' _]. split; auto.
        rewrite (ids_add _ _ _ Ea). rewrite (flat_map_perm _ _ _ (drop_nth_perm _ _ _ En)). simpl.
        rewrite !app_assoc. apply Permutation_app_tail. apply Permutation_app_tail. apply Permutation_app_comm.
      * unfold addSource in Ea. destruct (mfind _ _); [|discriminate]. injection Ea as _ <-. auto.
  - destruct (deleteSource (w_model w) n) as [[m|x m|] [s|]] eqn:Ed; try discriminate; injection E as <- <-; simpl.
    + destruct (wf_del _ _ _ _ Hw Ed) as [Hw' _]. split; auto. rewrite (ids_del _ _ _ _ Ed).
      rewrite flat_map_app. simpl. rewrite app_nil_r. rewrite !app_assoc. apply Permutation_app_tail.
      rewrite <- (app_assoc (s_ids s)). apply Permutation_app_comm.
    + unfold deleteSource in Ed. destruct (mfind _ _); discriminate.
    + unfold deleteSource in Ed. destruct (mfind _ _); [discriminate|]. injection Ed as _ <-. auto.
  - destruct (deleteAll_gen (w_model w) Hw) as (m & Ed & E1 & E2). rewrite Ed in E. injection E as <- <-. simpl.
    split.
    + split; [|]; rewrite E1; constructor.
    + unfold model_ids. rewrite E1. simpl. rewrite app_assoc. rewrite Permutation_app_comm. apply Permutation_app_tail.
      unfold mvals. rewrite flat_map_concat_map, map_map, <- flat_map_concat_map. reflexivity.
  - pose proof (setter_cases (w_model w) (setParam (w_model w) q b n) Hw ltac:(right; right; eauto)) as Hc.
    destruct (setParam (w_model w) q b n) as [m|x m|]; simpl in E; [| |discriminate]; injection E as <- <-; simpl.
    + destruct Hc as (H1 & H2 & H3). rewrite H3. auto.
    + destruct Hc as (H1 & H2 & H3). rewrite H2. auto.
  - pose proof (setter_cases (w_model w) (setValues sel_free (w_model w) vs) Hw ltac:(left; eauto)) as Hc.
    destruct (setValues sel_free (w_model w) vs) as [m|x m|]; simpl in E; [| |discriminate]; injection E as <- <-; simpl.
    + destruct Hc as (H1 & H2 & H3). rewrite H3. auto.
    + destruct Hc as (H1 & H2 & H3). rewrite H2. auto.
  - pose proof (setter_cases (w_model w) (setValues sel_all (w_model w) vs) Hw ltac:(left; eauto)) as Hc.
    destruct (setValues sel_all (w_model w) vs) as [m|x m|]; simpl in E; [| |discriminate]; injection E as <- <-; simpl.
    + destruct Hc as (H1 & H2 & H3). rewrite H3. auto.
    + destruct Hc as (H1 & H2 & H3). rewrite H2. auto.
  - pose proof (setter_cases (w_model w) (setParams sel_all (w_model w) qs) Hw ltac:(right; left; eauto)) as Hc.
    destruct (setParams sel_all (w_model w) qs) as [m|x m|]; simpl in E; [| |discriminate]; injection E as <- <-; simpl.
    + destruct Hc as (H1 & H2 & H3). rewrite H3. auto.
    + destruct Hc as (H1 & H2 & H3). rewrite H2. auto.
  - pose proof (setter_cases (w_model w) (setParams sel_free (w_model w) qs) Hw ltac:(right; left; eauto)) as Hc.
    destruct (setParams sel_free (w_model w) qs) as [m|x m|]; simpl in E; [| |discriminate]; injection E as <- <-; simpl.
    + destruct Hc as (H1 & H2 & H3). rewrite H3. auto.
    + destruct Hc as (H1 & H2 & H3). rewrite H2. auto.
Qed.

Lemma step_next w o w' e : step w o = Some (w', e) ->
  (w_next w' = w_next w \/ w_next w' = S (w_next w) \/ w_next w' = w_next w + w_next w)%nat /\
  (w_next w <= w_next w')%nat /\
  (forall i, In i (new_ids w o e) -> Forall (fun i => (i < w_next w)%nat) (accounted w) -> (w_next w <= i < w_next w')%nat).
Proof.
  intros E. destruct o as [n ps|i fc|n| |q b n|vs|vs|qs|qs]; cbn [step] in E.
  - injection E as <- <-. simpl. split; [auto|]. split; [lia|]. intros i [<-|[]] _. lia.
  - destruct (nth_error (w_caller w) i) as [s|] eqn:En.
    2:{ injection E as <- <-. split; [auto|]. split; [lia|]. simpl. rewrite En. destruct fc; simpl; tauto. }
    destruct fc.
    + destruct (addSource (w_model w) (s_clone (w_next w) s)) as [m|x m|] eqn:Ea; [| |discriminate]; injection E as <- <-; simpl.
      * split; [auto|]. split; [lia|]. rewrite En. intros j Hj Hf. apply in_map_iff in Hj as (y & <- & Hy).
        assert (y < w_next w)%nat; [|lia]. rewrite Forall_forall in Hf. apply Hf. unfold accounted.
        apply in_or_app. right. apply in_or_app. left. apply in_flat_map. exists s. split; auto. eapply nth_error_In; eauto.
      * split; [auto|]. split; [lia|]. tauto.
    + destruct (addSource (w_model w) s) as [m|x m|] eqn:Ea; [| |discriminate]; injection E as <- <-; simpl; (split; [auto|]; split; [lia|]; tauto).
  - destruct (deleteSource (w_model w) n) as [[m|x m|] [s|]] eqn:Ed; try discriminate; injection E as <- <-; simpl; (split; [auto|]; split; [lia|]; tauto).
  - destruct (deleteAllSources (w_model w)) as [[m|x m|] f]; try discriminate; injection E as <- <-; simpl; (split; [auto|]; split; [lia|]; tauto).
  - destruct (setParam (w_model w) q b n) as [m|x m|]; simpl in E; [| |discriminate]; injection E as <- <-; simpl; (split; [auto|]; split; [lia|]; tauto).
  - destruct (setValues sel_free (w_model w) vs) as [m|x m|]; simpl in E; [| |discriminate]; injection E as <- <-; simpl; (split; [auto|]; split; [lia|]; tauto).
  - destruct (setValues sel_all (w_model w) vs) as [m|x m|]; simpl in E; [| |discriminate]; injection E as <- <-; simpl; (split; [auto|]; split; [lia|]; tauto).
  - destruct (setParams sel_all (w_model w) qs) as [m|x m|]; simpl in E; [| |discriminate]; injection E as <- <-; simpl; (split; [auto|]; split; [lia|]; tauto).
  - destruct (setParams sel_free (w_model w) qs) as [m|x m|]; simpl in E; [| |discriminate]; injection E as <- <-; simpl; (split; [auto|]; split; [lia|]; tauto).
Qed.

Lemma NoDup_app {A} (l l' : list A) : NoDup l -> NoDup l' -> (forall x, In x l -> ~ In x l') -> NoDup (l ++ l').
Proof.
  induction l as [|x l IH]; intros H1 H2 H3; simpl; auto. inversion H1; subst. constructor.
  - rewrite in_app_iff. intros [H|H]; [contradiction|]. apply (H3 x); simpl; auto.
  - apply IH; auto. intros y Hy. apply H3. simpl; auto.
Qed.
Lemma NoDup_app_l {A} (l l' : list A) : NoDup (l ++ l') -> NoDup l.
Proof. induction l as [|x l IH]; simpl; intros H; [constructor|]. inversion H; subst. constructor; auto. rewrite in_app_iff in *. tauto. Qed.
Lemma NoDup_app_r {A} (l l' : list A) : NoDup (l ++ l') -> NoDup l'.
Proof. induction l as [|x l IH]; simpl; intros H; auto. inversion H; subst. auto. Qed.

Lemma NoDup_s_ids_caller w i s : NoDup (accounted w) -> nth_error (w_caller w) i = Some s -> NoDup (s_ids s).
Proof.
  intros H E. unfold accounted in H. apply NoDup_app_r in H. apply NoDup_app_l in H.
  apply nth_error_split in E as (l1 & l2 & Ec & _). rewrite Ec, flat_map_app in H. simpl in H.
  apply NoDup_app_r in H. now apply NoDup_app_l in H.
Qed.

Lemma step_wf w o w' e : wf_world w -> step w o = Some (w', e) -> wf_world w' /\ incl (accounted w) (accounted w').
Proof.
  intros (H1 & H2 & H3) E.
  destruct (step_accounted w o w' e H1 E) as [H4 P].
  destruct (step_next w o w' e E) as (N1 & N2 & N3).
  split.
  - split; auto. split.
    + apply (Permutation_NoDup (Permutation_sym P)). apply NoDup_app; auto.
      * destruct o as [n ps|i fc|n| |q b n|vs|vs|qs|qs]; simpl; try constructor; simpl; auto; try constructor.
        destruct fc; [|constructor]. destruct e; [constructor|]. destruct (nth_error (w_caller w) i) eqn:En; [|constructor].
        apply FinFun.Injective_map_NoDup; [intros a b; lia|]. eapply NoDup_s_ids_caller; eauto.
      * intros x Hx Hi. specialize (N3 x Hx H3). rewrite Forall_forall in H3. specialize (H3 x Hi). lia.
    + apply (Permutation_Forall (Permutation_sym P)). apply Forall_app. split.
      * apply Forall_forall. intros x Hx. specialize (N3 x Hx H3). lia.
      * eapply Forall_impl; [|exact H3]. simpl. intros. lia.
  - intros x Hx. apply (Permutation_in _ (Permutation_sym P)). apply in_or_app. auto.
Qed.

Lemma run_wf : forall ops w w' es, wf_world w -> run w ops = Some (w', es) -> wf_world w' /\ incl (accounted w) (accounted w').
Proof.
  induction ops as [|o ops IH]; intros w w' es H E; simpl in E.
  - injection E as <- <-. split; auto. apply incl_refl.
  - destruct (step w o) as [[w1 e]|] eqn:E1; [|discriminate]. destruct (run w1 ops) as [[w2 es2]|] eqn:E2; [|discriminate].
    injection E as <- <-. destruct (step_wf _ _ _ _ H E1) as [H1 I1]. destruct (IH _ _ _ H1 E2) as [H2 I2].
    split; auto. eapply incl_tran; eauto.
Qed.
Lemma wf_empty : wf_world empty_world.
Proof. split; [split; constructor|]. split; constructor. Qed.

(** *** synchronisation *)
Lemma step_synced w o w' e : wf_model (w_model w) -> synced (w_model w) -> step w o = Some (w', e) ->
  e <> Some EOutOfBounds -> e <> Some EParNotFound -> synced (w_model w').
Proof.
  intros Hw Hs E N1 N2.
  assert (forall r, ((exists sel vs, r = setValues sel (w_model w) vs) \/ (exists sel qs, r = setParams sel (w_model w) qs) \/
      (exists q b n, r = setParam (w_model w) q b n)) -> lift w r = Some (w', e) -> synced (w_model w')) as HS.
  { intros r Hr El. pose proof (setter_cases (w_model w) r Hw Hr) as Hc.
    destruct r as [m|x m|]; simpl in El; [| |discriminate]; injection El as <- <-; simpl.
    - tauto.
    - destruct Hc as (_ & _ & Hc). rewrite Hc; auto; congruence. }
  destruct o as [n ps|i fc|n| |q b n|vs|vs|qs|qs]; cbn [step] in E.
  - injection E as <- <-. auto.
  - destruct (nth_error (w_caller w) i) as [s|]; [|injection E as <- <-; auto].
    assert (forall s', match addSource (w_model w) s' with Done m => synced m | Threw _ m => synced m | Undef => True end) as Ha.
    { intros s'. unfold addSource. destruct (mfind _ _); auto. apply synced_sync. }
    destruct fc; [specialize (Ha (s_clone (w_next w) s))|specialize (Ha s)]; destruct (addSource _ _);
      try discriminate; injection E as <- <-; auto.
  - unfold deleteSource in E. destruct (mfind _ _); injection E as <- <-; auto. apply synced_sync.
  - rewrite (deleteAll_spec _ Hw Hs) in E. injection E as <- <-. reflexivity.
  - eapply HS; [|exact E]. right; right. repeat eexists.
  - eapply HS; [|exact E]. left. repeat eexists.
  - eapply HS; [|exact E]. left. repeat eexists.
  - eapply HS; [|exact E]. right; left. repeat eexists.
  - eapply HS; [|exact E]. right; left. repeat eexists.
Qed.
Lemma run_synced : forall ops w w' es, wf_world w -> synced (w_model w) -> run w ops = Some (w', es) ->
  ~ In (Some EOutOfBounds) es -> ~ In (Some EParNotFound) es -> synced (w_model w').
Proof.
  induction ops as [|o ops IH]; intros w w' es H Hs E N1 N2; simpl in E.
  - injection E as <- <-. auto.
  - destruct (step w o) as [[w1 e]|] eqn:E1; [|discriminate]. destruct (run w1 ops) as [[w2 es2]|] eqn:E2; [|discriminate].
    injection E as <- <-. simpl in N1, N2. apply (IH w1 w2 es2); auto.
    + eapply step_wf; eauto.
    + eapply step_synced; eauto. apply H.
Qed.

(** *** no undefined behaviour while synchronised *)
Lemma set_vals_ok sel : forall ps vs, (length (filter sel ps) <= length vs)%nat ->
  Forall2 in_bounds (filter sel ps) (firstn (length (filter sel ps)) vs) ->
  exists ps', set_vals sel ps vs = (ps', None) /\
    ((forall p v, sel (with_val p v) = sel p) -> map q_val (filter sel ps') = firstn (length (filter sel ps)) vs /\
      map (fun p => if sel p then None else Some (q_val p)) ps' = map (fun p => if sel p then None else Some (q_val p)) ps).
Proof.
  induction ps as [|p ps IH]; intros vs H F; simpl in *.
  - exists []. auto.
  - destruct (sel p) eqn:Es.
    + destruct vs as [|v vs]; simpl in *; [lia|]. inversion F; subst.
      replace ((q_lo p <=? v) && (v <=? q_hi p)) with true by (unfold in_bounds in *; symmetry; apply andb_true_iff; lia).
      destruct (IH vs ltac:(lia) ltac:(auto)) as (ps' & E & Hr). rewrite E. eexists. split; [reflexivity|].
      intros Hsel. specialize (Hr Hsel) as [R1 R2]. simpl. rewrite Hsel, Es. simpl. rewrite R1, R2. auto.
    + destruct (IH vs H F) as (ps' & E & Hr). rewrite E. eexists. split; [reflexivity|].
      intros Hsel. specialize (Hr Hsel) as [R1 R2]. simpl. rewrite Es. rewrite R1, R2. auto.
Qed.

Lemma Forall2_app_split {A B} (P : A -> B -> Prop) l1 l2 v : Forall2 P (l1 ++ l2) v ->
  Forall2 P l1 (firstn (length l1) v) /\ Forall2 P l2 (skipn (length l1) v).
Proof.
  revert v. induction l1 as [|x l1 IH]; intros v H; simpl in *; [split; [constructor|auto]|].
  inversion H; subst. simpl. destruct (IH _ H4). split; auto.
Qed.
Lemma Forall2_len {A B} (P : A -> B -> Prop) l v : Forall2 P l v -> length l = length v.
Proof. induction 1; simpl; auto. Qed.

Lemma set_all_ok sel (Hsel : forall p v, sel (with_val p v) = sel p) : forall l vs,
  Forall2 in_bounds (filter sel (flat_map (fun p => s_params (snd p)) l)) vs ->
  exists l', set_all sel l vs = (l', None) /\
    map q_val (filter sel (flat_map (fun p => s_params (snd p)) l')) = vs /\
    map (fun p => if sel p then None else Some (q_val p)) (flat_map (fun p => s_params (snd p)) l') =
    map (fun p => if sel p then None else Some (q_val p)) (flat_map (fun p => s_params (snd p)) l) /\
    map (fun p => (fst p, s_ids (snd p), map skeleton (s_params (snd p)))) l' = map (fun p => (fst p, s_ids (snd p), map skeleton (s_params (snd p)))) l.
Proof.
  induction l as [|[n s] l IH]; intros vs F; simpl in *.
  - inversion F; subst. exists []. auto.
  - rewrite filter_app in F. pose proof (Forall2_len _ _ _ F) as HL. rewrite app_length in HL.
    apply Forall2_app_split in F as [F1 F2].
    destruct (set_vals_ok sel (s_params s) vs ltac:(lia) F1) as (ps' & E & Hr). rewrite E.
    specialize (Hr Hsel) as [R1 R2]. unfold count_sel.
    destruct (IH _ F2) as (l' & E' & R3 & R4 & R5). rewrite E'. eexists. split; [reflexivity|]. cbn [flat_map map fst snd].
    rewrite params_with_params, ids_with_params, filter_app, !map_app, R1, R2, R3, R4, R5. rewrite firstn_skipn.
    split; auto. split; auto. f_equal. f_equal.
    pose proof (set_vals_skel sel (s_params s) vs) as Hk. rewrite E in Hk. exact Hk.
Qed.

Lemma source_list_params m m' : source_list m = source_list m' -> map skeleton (source_params m) = map skeleton (source_params m').
Proof.
  unfold source_list, source_params. revert m'. destruct m as [l a b]. intros [l' a' b']. simpl. clear.
  revert l'. induction l as [|p l IH]; intros [|p' l'] E; simpl in *; try discriminate; auto.
  injection E as E1 E2 E3 E4. rewrite !map_app, E3. f_equal. auto.
Qed.

Lemma setValues_ok sel (Hsel : forall p v, sel (with_val p v) = sel p) m vs : m_par m = source_params m ->
  Forall2 in_bounds (filter sel (m_par m)) vs ->
  exists m', setValues sel m vs = Done m' /\ synced m' /\ map q_val (filter sel (m_par m')) = vs /\
    map (fun p => if sel p then None else Some (q_val p)) (m_par m') = map (fun p => if sel p then None else Some (q_val p)) (m_par m) /\
    source_list m' = source_list m /\ map skeleton (m_par m') = map skeleton (m_par m).
Proof.
  intros Hs F. unfold setValues. unfold count_sel. rewrite (Forall2_len _ _ _ F), Nat.eqb_refl.
  unfold setValues_. rewrite Hs in F.
  destruct (set_all_ok sel Hsel (m_src m) vs F) as (l' & E & R1 & R2 & R3). rewrite E.
  eexists. split; [reflexivity|]. split; [apply synced_sync|]. rewrite Hs. simpl.
  split; auto. split; auto. split; auto.
  apply (source_list_params (mk_model l' [] []) m). exact R3.
Qed.

Lemma set_named_head pre p ps q : ~ In (q_name q) (map q_name pre) -> q_name p = q_name q ->
  set_named (pre ++ p :: ps) q = Some (pre ++ q :: ps).
Proof.
  induction pre as [|x pre IH]; intros Hn Hq; simpl in *.
  - now rewrite (proj2 (Z.eqb_eq _ _) Hq).
  - destruct (Z.eqb_spec (q_name x) (q_name q)); [intuition|]. rewrite IH by tauto. reflexivity.
Qed.
Lemma set_params_src_ok : forall ps pre qs, NoDup (map q_name (pre ++ ps)) ->
  map q_name ps = map q_name (firstn (length ps) qs) -> (length ps <= length qs)%nat ->
  set_params_src (pre ++ ps) qs (length ps) = (pre ++ firstn (length ps) qs, None).
Proof.
  induction ps as [|p ps IH]; intros pre qs ND E L; simpl; auto.
  destruct qs as [|q qs]; [simpl in L; lia|]. simpl in E. injection E as E1 E2.
  rewrite set_named_head; auto.
  - replace (pre ++ q :: ps) with ((pre ++ [q]) ++ ps) by (rewrite <- app_assoc; reflexivity).
    rewrite IH; auto.
    + rewrite <- app_assoc. reflexivity.
    + rewrite <- app_assoc. simpl. rewrite map_app in *. simpl in *. now rewrite <- E1.
    + simpl in L. lia.
  - rewrite <- E1. rewrite map_app in ND. simpl in ND. apply NoDup_remove_2 in ND. rewrite in_app_iff in ND. tauto.
Qed.
Lemma filter_all ps : filter sel_all ps = ps.
Proof. induction ps; simpl; congruence. Qed.
Lemma set_params_all_ok : forall l qs, Forall (fun p => NoDup (map q_name (s_params (snd p)))) l ->
  map q_name (flat_map (fun p => s_params (snd p)) l) = map q_name qs ->
  exists l', set_params_all sel_all l qs = (l', None) /\ flat_map (fun p => s_params (snd p)) l' = qs /\
    map (fun p => (fst p, s_ids (snd p))) l' = map (fun p => (fst p, s_ids (snd p))) l.
Proof.
  induction l as [|[n s] l IH]; intros qs F E; simpl in *.
  - destruct qs; [|discriminate]. exists []. auto.
  - inversion F; subst. simpl in *. unfold count_sel. rewrite filter_all.
    assert (length (s_params s) <= length qs)%nat as L.
    { apply (f_equal (@length Z)) in E. rewrite !map_length, app_length in E. lia. }
    assert (map q_name (s_params s) = map q_name (firstn (length (s_params s)) qs)) as E1.
    { apply (f_equal (firstn (length (s_params s)))) in E. rewrite !firstn_map in E.
      rewrite firstn_app, Nat.sub_diag, firstn_all in E. simpl in E. now rewrite app_nil_r in E. }
    pose proof (set_params_src_ok (s_params s) [] qs ltac:(auto) E1 L) as ES. simpl in ES. rewrite ES.
    destruct (IH (skipn (length (s_params s)) qs)) as (l' & E' & R1 & R2); auto.
    { apply (f_equal (skipn (length (s_params s)))) in E. rewrite !skipn_map in E.
      rewrite skipn_app, Nat.sub_diag, skipn_all in E. exact E. }
    rewrite E'. eexists. split; [reflexivity|]. cbn [flat_map map fst snd]. rewrite params_with_params, ids_with_params, R1, R2.
    split; auto. apply firstn_skipn.
Qed.

(** *** refinement *)
Definition refines (w : world) (s : astate) : Prop :=
  (forall n, option_map s_params (mfind n (m_src (w_model w))) = a_has s n) /\
  map (fun x => (s_name x, s_params x)) (w_caller w) = a_hand s.

Lemma step_refines w s o : wf_world w -> synced (w_model w) -> refines w s -> container_op o = true ->
  exists w' e, step w o = Some (w', e) /\ refines w' (fst (astep s o)) /\
    (match e with Some _ => true | None => false end) = snd (astep s o) /\ e <> Some EOutOfBounds /\ e <> Some EParNotFound.
Proof.
  intros (Hw & _) Hs [R1 R2] Hc. destruct o as [n ps|i fc|n| |q b n|vs|vs|qs|qs]; try discriminate; cbn [step astep].
  - eexists _, _. split; [reflexivity|]. split; [|repeat split; congruence]. split; simpl; auto.
    rewrite map_app, R2. reflexivity.
  - rewrite <- R2. rewrite nth_error_map. destruct (nth_error (w_caller w) i) as [x|] eqn:En; simpl.
    2:{ eexists _, _. split; [reflexivity|]. split; [split; auto|]. split; auto. split; congruence. }
    assert (forall y, s_name y = s_name x -> s_params y = s_params x ->
      match mfind (s_name x) (m_src (w_model w)) with
      | Some _ => addSource (w_model w) y = Threw EDuplicate (w_model w)
      | None => exists m', addSource (w_model w) y = Done m' /\
          forall k, option_map s_params (mfind k (m_src m')) = if k =? s_name x then Some (s_params x) else a_has s k
      end) as HA.
    { intros y Ey Ep. unfold addSource. rewrite Ey. destruct (mfind (s_name x) _); auto.
      eexists. split; [reflexivity|]. intros k. simpl. destruct (Z.eqb_spec k (s_name x)) as [->|Hk].
      - rewrite mfind_insert_eq. simpl. now rewrite Ep.
      - rewrite mfind_insert_neq by auto. apply R1. }
    rewrite <- (R1 (s_name x)). destruct (mfind (s_name x) (m_src (w_model w))) eqn:Ef; simpl.
    + destruct fc.
      * rewrite (HA (s_clone (w_next w) x)) by (auto using name_clone, params_clone).
        eexists _, _. split; [reflexivity|]. split; [split; auto|]. split; auto. split; congruence.
      * rewrite (HA x) by auto. eexists _, _. split; [reflexivity|]. split; [split; auto|]. split; auto. split; congruence.
    + destruct fc.
      * destruct (HA (s_clone (w_next w) x)) as (m' & E & Hm); auto using name_clone, params_clone. rewrite E.
        eexists _, _. split; [reflexivity|]. split; [split; simpl; auto|]. split; auto. split; congruence.
      * destruct (HA x) as (m' & E & Hm); auto. rewrite E.
        eexists _, _. split; [reflexivity|]. split; [split; simpl; auto|].
        { rewrite <- drop_nth_map. reflexivity. }
        split; auto. split; congruence.
  - unfold deleteSource. rewrite <- (R1 n). destruct (mfind n (m_src (w_model w))) as [x|] eqn:Ef; simpl.
    + eexists _, _. split; [reflexivity|]. split; [split; simpl|].
      * intros k. destruct (Z.eqb_spec k n) as [->|Hk].
        -- rewrite mfind_erase_eq by apply Hw. reflexivity.
        -- rewrite mfind_erase_neq by auto. apply R1.
      * rewrite map_app, R2. simpl. destruct Hw as [_ Hn]. rewrite Forall_forall in Hn.
        apply mfind_in in Ef. apply Hn in Ef. simpl in Ef. now rewrite <- Ef.
      * split; auto. split; congruence.
    + eexists _, _. split; [reflexivity|]. split; [split; auto|]. split; auto. split; congruence.
  - rewrite (deleteAll_spec _ Hw Hs). eexists _, _. split; [reflexivity|]. split; [split; simpl; auto|]. split; auto. split; congruence.
Qed.

Lemma run_refines : forall ops w s, wf_world w -> synced (w_model w) -> refines w s -> forallb container_op ops = true ->
  exists w' es, run w ops = Some (w', es) /\ refines w' (fst (arun s ops)) /\
    map (fun e : option exn => match e with Some _ => true | None => false end) es = snd (arun s ops).
Proof.
  induction ops as [|o ops IH]; intros w s Hw Hs R Hc; simpl in *.
  - eexists _, _. split; [reflexivity|]. auto.
  - apply andb_true_iff in Hc as [Hc1 Hc2].
    destruct (step_refines w s o Hw Hs R Hc1) as (w1 & e & E & R' & B & N1 & N2). rewrite E.
    destruct (step_wf _ _ _ _ Hw E) as [Hw1 _].
    destruct (IH w1 (fst (astep s o)) Hw1 (step_synced _ _ _ _ (proj1 Hw) Hs E N1 N2) R' Hc2) as (w' & es & E' & R'' & B').
    rewrite E'. eexists _, _. split; [reflexivity|]. destruct (astep s o) as [s1 b]. simpl in *.
    destruct (arun s1 ops) as [s2 bs]. simpl in *. split; auto. congruence.
Qed.

(** *** moves *)
Lemma give_ok a b n a' b' : give_source a b n = (a', b', None) ->
  Permutation (model_ids a' ++ model_ids b') (model_ids a ++ model_ids b).
Proof.
  unfold give_source. intros E. destruct (deleteSource a n) as [[m|x m|] [s|]] eqn:Ed; try discriminate.
  - destruct (addSource b s) as [m'|x m'|] eqn:Ea; try discriminate.
    + injection E as <- <-. rewrite (ids_add _ _ _ Ea), (ids_del _ _ _ _ Ed). rewrite app_assoc. apply Permutation_app_tail. apply Permutation_app_comm.
    + unfold addSource in Ea. destruct (mfind _ _); discriminate.
  - unfold deleteSource in Ed. destruct (mfind _ _); discriminate.
  - unfold deleteSource in Ed. destruct (mfind _ _); discriminate.
  - unfold deleteSource in Ed. destruct (mfind _ _); discriminate.
Qed.

Lemma steal_all_ok : forall ns m comp m' comp', steal_all m comp ns = (m', comp', None) ->
  Permutation (model_ids m' ++ flat_map (fun p => s_ids (snd p)) comp') (model_ids m ++ flat_map (fun p => s_ids (snd p)) comp).
Proof.
  induction ns as [|n ns IH]; intros m comp m' comp' E; simpl in E.
  - injection E as <- <-. reflexivity.
  - destruct (deleteSource m n) as [[m1|x m1|] [s|]] eqn:Ed; try discriminate;
      try (unfold deleteSource in Ed; destruct (mfind _ _); discriminate).
    destruct (mfind (s_name s) comp) eqn:Ef; [discriminate|].
    rewrite (IH _ _ _ _ E). rewrite (ids_del _ _ _ _ Ed), (flat_map_perm _ _ _ (minsert_perm _ s _ Ef)). simpl.
    rewrite app_assoc. apply Permutation_app_tail. apply Permutation_app_comm.
Qed.
Lemma give_all_ok : forall l m m', give_all m l = (m', None) ->
  Permutation (model_ids m') (model_ids m ++ flat_map (fun p => s_ids (snd p)) l).
Proof.
  induction l as [|[k s] l IH]; intros m m' E; simpl in E.
  - injection E as <-. simpl. now rewrite app_nil_r.
  - destruct (addSource m s) as [m1|x m1|] eqn:Ea; try discriminate.
    + rewrite (IH _ _ E), (ids_add _ _ _ Ea). simpl. rewrite app_assoc. apply Permutation_app_tail. apply Permutation_app_comm.
    + unfold addSource in Ea. destruct (mfind _ _); discriminate.
Qed.

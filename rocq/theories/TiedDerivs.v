(** Order of the free parameters, derivatives and index lookup of Composite2. *)
From Coq Require Import Reals Lra Permutation.
From Verif Require Import Base SMap SrcModel SrcSpec SrcProofs TiedModel TiedSpec TiedProofs AccumProofs.
Local Open Scope Z_scope.

Definition lfree (ps : list param) (j : nat) : bool := match nth_error ps j with Some p => q_free p | None => false end.
Definition lidx (tl : list nat) (full : list param) (i n : nat) : list nat :=
  filter (fun j => lfree full j && negb (is_tied tl j)) (seq i n).

Lemma lfree_mid pre p rest : lfree (pre ++ p :: rest) (length pre) = q_free p.
Proof. unfold lfree. rewrite nth_error_app2, Nat.sub_diag by lia. reflexivity. Qed.
Lemma nth_mid {A} (pre : list A) p rest : nth_error (pre ++ p :: rest) (length pre) = Some p.
Proof. rewrite nth_error_app2, Nat.sub_diag by lia. reflexivity. Qed.
Lemma app_mid {A} (pre : list A) p rest : pre ++ p :: rest = (pre ++ [p]) ++ rest.
Proof. now rewrite <- app_assoc. Qed.
Lemma len_mid {A} (pre : list A) p : length (pre ++ [p]) = S (length pre).
Proof. rewrite app_length. simpl. lia. Qed.

Lemma untied_idx tl : forall rest pre,
  map Some (untied tl (length pre) rest) = map (nth_error (pre ++ rest)) (lidx tl (pre ++ rest) (length pre) (length rest)).
Proof.
  induction rest as [|p rest IH]; intros pre; simpl; auto. unfold lidx. simpl. rewrite lfree_mid.
  specialize (IH (pre ++ [p])). rewrite <- app_mid, len_mid in IH. unfold lidx in IH.
  destruct (q_free p && negb (is_tied tl (length pre))); simpl; auto. rewrite nth_mid. f_equal. exact IH.
Qed.

Section K.
Variables (k : comp2) (HI : forall c tl, In (c, tl) (k_comps k) -> forall i, In i tl <-> in_some_group k c i).

Lemma tied_at_spec c tl i : In (c, tl) (k_comps k) -> tied_at k c i = is_tied tl i.
Proof.
  intros Hc. pose proof HI as J3. destruct (is_tied tl i) eqn:E.
  - apply is_tied_spec in E. apply (J3 c tl Hc) in E as (t & Ht & Hi). unfold tied_at. apply existsb_exists. exists t. split; auto.
    now apply has_member_spec.
  - destruct (tied_at k c i) eqn:E2; auto. unfold tied_at in E2. apply existsb_exists in E2 as (t & Ht & Hi). apply has_member_spec in Hi.
    assert (is_tied tl i = true); [|congruence]. apply is_tied_spec. apply (J3 c tl Hc). exists t; auto.
Qed.
Lemma lidx_spec c tl : In (c, tl) (k_comps k) ->
  filter (fun i => slot_free k c i && negb (tied_at k c i)) (seq 0 (length (m_par (k_heap k c)))) = lidx tl (m_par (k_heap k c)) 0 (length (m_par (k_heap k c))).
Proof.
  intros Hc. unfold lidx. apply filter_ext. intros i. now rewrite (tied_at_spec c tl i Hc).
Qed.
Definition singles (comps : smap (list nat)) : list entry :=
  flat_map (fun p => map (Single (fst p)) (lidx (snd p) (m_par (k_heap k (fst p))) 0 (length (m_par (k_heap k (fst p)))))) comps.
Definition fgroups : list entry := map Group (filter (group_free k) (seq 0 (length (k_tied k)))).
Lemma entries_eq : entries k = singles (k_comps k) ++ fgroups.
Proof.
  unfold entries. f_equal. unfold mkeys, singles. rewrite !flat_map_concat_map. rewrite map_map.
  f_equal. apply map_ext_in. intros [c tl] Hc. simpl. f_equal. now apply lidx_spec.
Qed.

Lemma groups_idx : forall rest pre, k_tied k = pre ++ rest ->
  map (fun t => Some (t_par t)) (filter (fun t => q_free (t_par t)) rest) =
  map (fun g => option_map t_par (group k g)) (filter (group_free k) (seq (length pre) (length rest))).
Proof.
  induction rest as [|t rest IH]; intros pre E; simpl; auto.
  assert (group k (length pre) = Some t) as Hg by (unfold group; rewrite E; apply nth_mid).
  unfold group_free at 1. rewrite Hg. specialize (IH (pre ++ [t])). rewrite <- app_mid, len_mid in IH. specialize (IH E).
  destruct (q_free (t_par t)); simpl; auto. rewrite Hg. simpl. f_equal. exact IH.
Qed.

Lemma params_are_entries ps : getFreeParams k = Some ps -> map Some ps = map (entry_param k) (entries k).
Proof.
  intros H. rewrite entries_eq. unfold getFreeParams in H. destruct (k_comps k) as [|p0 l0] eqn:Ek; [discriminate|]. rewrite <- Ek in *.
  injection H as <-. rewrite !map_app. f_equal.
  - clear Ek p0 l0 HI. induction (k_comps k) as [|[c tl] l IH]; simpl; auto. rewrite !map_app, IH. f_equal.
    pose proof (untied_idx tl (m_par (k_heap k c)) []) as E. simpl in E. rewrite E, map_map. reflexivity.
  - unfold fgroups. rewrite !map_map. exact (groups_idx (k_tied k) [] eq_refl).
Qed.

(** *** derivatives *)
Hypothesis J : joint_ok k.
Variable (fd : Z -> list R).
Hypothesis Hfd : forall c, In c (mkeys (k_comps k)) -> length (fd c) = length (filter q_free (m_par (k_heap k c))).

Definition D (t : tied) (c : Z) (full : list param) (fdc : list R) (tl : list nat) (j : nat) : R :=
  if lfree full j && is_tied tl j && has_member t c j then nth (length (filter q_free (firstn j full))) fdc 0%R else 0%R.

Lemma combine_map_id {A B} (f : A * B -> B) (ts : list A) (tp : list B) :
  combine ts (map f (combine ts tp)) = map (fun p => (fst p, f p)) (combine ts tp).
Proof. revert tp. induction ts as [|t ts IH]; intros [|x tp]; simpl; auto. f_equal. apply IH. Qed.
Lemma add_tied_length ts c i d tp : length tp = length ts -> length (add_tied ts c i d tp) = length ts.
Proof. intros H. unfold add_tied. rewrite map_length, combine_length. lia. Qed.
Lemma map_snd_combine {A B} (ts : list A) (tp : list B) : length tp = length ts -> map snd (combine ts tp) = tp.
Proof. revert tp. induction ts as [|t ts IH]; intros [|x tp] H; simpl in *; try discriminate; auto. f_equal. apply IH. lia. Qed.

Lemma derivs_comp_ok ts c tl fdc : forall rest pre tp, length tp = length ts ->
  length fdc = length (filter q_free (pre ++ rest)) ->
  derivs_comp ts c tl (length pre) rest (skipn (length (filter q_free pre)) fdc) tp =
  Some (map (fun j => nth (length (filter q_free (firstn j (pre ++ rest)))) fdc 0%R) (lidx tl (pre ++ rest) (length pre) (length rest)),
        map (fun p => (snd p + Rsum (map (D (fst p) c (pre ++ rest) fdc tl) (seq (length pre) (length rest))))%R) (combine ts tp)).
Proof.
  induction rest as [|p rest IH]; intros pre tp HL HF.
  - simpl. f_equal. f_equal. rewrite <- (map_snd_combine ts tp HL) at 1. apply map_ext. intros. lra.
  - cbn [derivs_comp length seq]. unfold lidx. cbn [seq filter]. rewrite lfree_mid.
    assert (firstn (length pre) (pre ++ p :: rest) = pre) as Hfn by (rewrite firstn_app, Nat.sub_diag, firstn_all, firstn_O, app_nil_r; auto).
    pose proof (IH (pre ++ [p])) as IH'. rewrite <- app_mid, len_mid in IH'. rewrite (filter_app q_free pre [p]) in IH'. change (filter q_free [p]) with (if q_free p then [p] else []) in IH'.
    destruct (q_free p) eqn:Ef.
    + set (m := length (filter q_free pre)) in *.
      assert (m < length fdc)%nat as Hm. { rewrite HF, filter_app, app_length. cbn [filter]. rewrite Ef. simpl. fold m. lia. }
      destruct (skipn m fdc) as [|d fd'] eqn:Es.
      { apply (f_equal (@length R)) in Es. rewrite skipn_length in Es. simpl in Es. lia. }
      assert (nth m fdc 0%R = d) as Hd.
      { rewrite <- (firstn_skipn m fdc), app_nth2; rewrite firstn_length, Nat.min_l by lia; [|lia]. now rewrite Nat.sub_diag, Es. }
      assert (fd' = skipn (m + 1) fdc) as Efd. { rewrite Nat.add_comm. rewrite <- skipn_skipn, Es. reflexivity. }
      rewrite (app_length (filter q_free pre) [p]) in IH'. fold m in IH'. change (length [p]) with 1%nat in IH'. rewrite <- Efd in IH'.
      cbn [andb]. destruct (negb (is_tied tl (length pre))) eqn:Et.
      * rewrite (IH' tp HL HF). f_equal. f_equal.
        -- cbn [map]. rewrite Hfn. fold m. now rewrite Hd.
        -- apply map_ext. intros q. cbn [map]. unfold Rsum at 2. cbn [fold_right]. fold (Rsum (map (D (fst q) c (pre ++ p :: rest) fdc tl) (seq (S (length pre)) (length rest)))).
           unfold D at 2. apply negb_true_iff in Et. rewrite Et, andb_false_r. simpl. lra.
      * rewrite (IH' (add_tied ts c (length pre) d tp) (add_tied_length _ _ _ _ _ HL) HF). f_equal. f_equal.
        unfold add_tied. rewrite combine_map_id. rewrite map_map. apply map_ext. intros q. cbn [fst snd map].
        unfold Rsum at 2. cbn [fold_right]. fold (Rsum (map (D (fst q) c (pre ++ p :: rest) fdc tl) (seq (S (length pre)) (length rest)))).
        unfold D at 2. rewrite lfree_mid, Ef. apply negb_false_iff in Et. rewrite Et. cbn [andb]. rewrite Hfn. fold m. rewrite Hd.
        destruct (has_member (fst q) c (length pre)); lra.
    + rewrite app_nil_r in IH'. cbn [andb]. rewrite (IH' tp HL HF). f_equal. f_equal.
      apply map_ext. intros q. cbn [map]. unfold Rsum at 2. cbn [fold_right]. fold (Rsum (map (D (fst q) c (pre ++ p :: rest) fdc tl) (seq (S (length pre)) (length rest)))).
      unfold D at 2. rewrite lfree_mid, Ef. simpl. lra.
Qed.

Definition Dk (t : tied) (p : Z * list nat) : R :=
  Rsum (map (D t (fst p) (m_par (k_heap k (fst p))) (fd (fst p)) (snd p)) (seq 0 (length (m_par (k_heap k (fst p)))))).
Lemma derivs_comps_ok : forall comps tp, (forall x, In x comps -> In x (k_comps k)) -> length tp = length (k_tied k) ->
  derivs_comps (k_heap k) (k_tied k) comps fd tp =
  Some (map (entry_deriv k fd) (singles comps), map (fun p => (snd p + Rsum (map (Dk (fst p)) comps))%R) (combine (k_tied k) tp)).
Proof.
  induction comps as [|[c tl] comps IH]; intros tp Hin HL; simpl.
  - f_equal. f_equal. rewrite <- (map_snd_combine (k_tied k) tp HL) at 1. apply map_ext. intros. unfold Rsum. simpl. lra.
  - pose proof (derivs_comp_ok (k_tied k) c tl (fd c) (m_par (k_heap k c)) [] tp HL) as E. simpl in E.
    rewrite E by (apply Hfd; eapply mkeys_in; apply Hin; simpl; eauto).
    rewrite IH; auto.
    + f_equal. f_equal.
      * rewrite map_app. f_equal. rewrite map_map. apply map_ext. intros j. reflexivity.
      * rewrite combine_map_id, map_map. apply map_ext. intros q. cbn [fst snd]. unfold Rsum at 3. cbn [fold_right map].
        fold (Rsum (map (Dk (fst q)) comps)). unfold Dk at 2. cbn [fst snd]. lra.
    + intros; apply Hin; simpl; auto.
    + rewrite map_length, combine_length. lia.
Qed.

(** all parameters of all components *)
Definition slots (comps : smap (list nat)) : list (Z * nat) :=
  flat_map (fun p => map (pair (fst p)) (seq 0 (length (m_par (k_heap k (fst p)))))) comps.
Lemma slots_in c i comps : In (c, i) (slots comps) <-> In c (mkeys comps) /\ (i < length (m_par (k_heap k c)))%nat.
Proof.
  unfold slots. rewrite in_flat_map. split.
  - intros ([c' tl] & Hc & Hi). simpl in Hi. apply in_map_iff in Hi as (j & E & Hj). injection E as -> ->. apply in_seq in Hj.
    split; [eapply mkeys_in; eauto|lia].
  - intros [Hc Hi]. apply mkeys_in_ex in Hc as (tl & Hc). exists (c, tl). split; auto. simpl. apply in_map. apply in_seq. lia.
Qed.
Lemma slots_nodup comps : sorted comps -> NoDup (slots comps).
Proof.
  induction comps as [|[c tl] comps IH]; intros Hs; simpl; [constructor|]. apply sorted_cons in Hs as [Hs Hc]. unfold slots. simpl.
  apply NoDup_app; [|apply IH; auto|].
  - apply FinFun.Injective_map_NoDup; [intros a b E; congruence|apply seq_NoDup].
  - intros [c' i] H1 H2. apply in_map_iff in H1 as (j & E & _). injection E as <- <-. apply slots_in in H2 as [H2 _].
    rewrite Forall_forall in Hc. specialize (Hc _ H2). lia.
Qed.
Lemma Rsum_filter {A} (cond : A -> bool) (f : A -> R) l : Rsum (map (fun x => if cond x then f x else 0%R) l) = Rsum (map f (filter cond l)).
Proof.
  induction l as [|x l IH]; simpl; auto. unfold Rsum in *. simpl. destruct (cond x); simpl; rewrite IH; lra.
Qed.
Lemma Rsum_flat {A B} (f : B -> R) (g : A -> list B) l : Rsum (map f (flat_map g l)) = Rsum (map (fun x => Rsum (map f (g x))) l).
Proof. induction l as [|x l IH]; simpl; auto. rewrite map_app, Rsum_app, IH. reflexivity. Qed.

Lemma tied_sum t : In t (k_tied k) -> q_free (t_par t) = true ->
  Rsum (map (Dk t) (k_comps k)) = Rsum (map (fun m => slot_deriv k fd (fst m) (snd m)) (t_mem t)).
Proof.
  intros Ht Hf. destruct J as [J1 J2 J3 J4 J5].
  transitivity (Rsum (map (fun m => if has_member t (fst m) (snd m) then slot_deriv k fd (fst m) (snd m) else 0%R) (slots (k_comps k)))).
  - unfold slots. rewrite Rsum_flat. f_equal. apply map_ext_in. intros [c tl] Hc. unfold Dk. cbn [fst snd]. rewrite map_map. f_equal.
    apply map_ext. intros j. cbn [fst snd]. unfold D. destruct (has_member t c j) eqn:Eh; [|now rewrite andb_false_r].
    apply has_member_spec in Eh. destruct (J5 t c j Ht Eh) as (_ & p & Hp & Hfp & _). unfold slot in Hp.
    unfold lfree. rewrite Hp, Hfp, Hf. rewrite (proj2 (is_tied_spec tl j)); [reflexivity|]. apply (J3 c tl Hc). exists t; auto.
  - rewrite Rsum_filter. apply Rsum_perm. apply Permutation_map. apply NoDup_Permutation.
    + apply NoDup_filter. now apply slots_nodup.
    + apply in_split in Ht as (l1 & l2 & El). rewrite El, flat_map_app in J4. simpl in J4. apply NoDup_app_r in J4. now apply NoDup_app_l in J4.
    + intros [c i]. rewrite filter_In. simpl. rewrite has_member_spec. split; [tauto|]. intros Hi. split; auto.
      destruct (J5 t c i Ht Hi) as (Hc & p & Hp & _). apply slots_in. split; auto. apply nth_error_Some. unfold slot in Hp. congruence.
Qed.

Lemma groups_deriv (F : tied -> R) : forall rest pre, k_tied k = pre ++ rest ->
  map F (filter (fun t => q_free (t_par t)) rest) =
  map (fun g => match group k g with Some t => F t | None => 0%R end) (filter (group_free k) (seq (length pre) (length rest))).
Proof.
  induction rest as [|t rest IH]; intros pre E; simpl; auto.
  assert (group k (length pre) = Some t) as Hg by (unfold group; rewrite E; apply nth_mid).
  unfold group_free at 1. rewrite Hg. specialize (IH (pre ++ [t])). rewrite <- app_mid, len_mid in IH. specialize (IH E).
  destruct (q_free (t_par t)); simpl; auto. rewrite Hg. f_equal. exact IH.
Qed.

Lemma derivs_ok : getFreeDerivs k fd = Some (map (entry_deriv k fd) (entries k)).
Proof.
  unfold getFreeDerivs. rewrite derivs_comps_ok; auto; [|apply repeat_length]. f_equal. rewrite entries_eq, map_app. f_equal.
  unfold fgroups. rewrite map_map. cbn [entry_deriv].
  pose proof (groups_deriv (fun t => Rsum (map (fun m => slot_deriv k fd (fst m) (snd m)) (t_mem t))) (k_tied k) [] eq_refl) as E.
  simpl in E. rewrite <- E. clear E. rewrite combine_map_id.
  assert (forall ts, (forall t, In t ts -> In t (k_tied k)) ->
    map snd (filter (fun p : tied * R => q_free (t_par (fst p))) (map (fun p => (fst p, (snd p + Rsum (map (Dk (fst p)) (k_comps k)))%R)) (combine ts (repeat 0%R (length ts))))) =
    map (fun t => Rsum (map (fun m => slot_deriv k fd (fst m) (snd m)) (t_mem t))) (filter (fun t => q_free (t_par t)) ts)) as HH.
  { induction ts as [|t ts IH]; intros Hin; simpl; auto. destruct (q_free (t_par t)) eqn:Ef; simpl.
    - rewrite tied_sum by (auto; apply Hin; simpl; auto). f_equal; [lra|]. apply IH. intros; apply Hin; simpl; auto.
    - apply IH. intros; apply Hin; simpl; auto. }
  apply HH. auto.
Qed.

(** *** index lookup *)
Lemma find_in_ok tl target : forall rest pre j, (length pre <= target)%nat \/ True ->
  (exists A B, lidx tl (pre ++ rest) (length pre) (length rest) = A ++ target :: B /\
               find_in tl target (length pre) rest j = inl (j + Z.of_nat (length A))) \/
  (~ In target (lidx tl (pre ++ rest) (length pre) (length rest)) /\
   find_in tl target (length pre) rest j = inr (j + Z.of_nat (length (lidx tl (pre ++ rest) (length pre) (length rest))))).
Proof.
  induction rest as [|p rest IH]; intros pre j _.
  - right. simpl. split; auto. f_equal. lia.
  - unfold lidx. cbn [find_in length seq filter]. rewrite lfree_mid.
    specialize (IH (pre ++ [p])). rewrite <- app_mid, len_mid in IH. unfold lidx in IH.
    destruct (q_free p) eqn:Ef; simpl andb; [|rewrite orb_true_r; apply IH; auto].
    destruct (is_tied tl (length pre)) eqn:Et; simpl.
    + apply IH; auto.
    + destruct (Nat.eqb_spec target (length pre)) as [->|Hn].
      * left. eexists [], _. split; [reflexivity|]. f_equal. simpl. lia.
      * destruct (IH (j + 1) (or_intror I)) as [(A & B & E1 & E2)|[E1 E2]].
        -- left. exists (length pre :: A), B. rewrite E1. split; auto. rewrite E2. f_equal. simpl length. lia.
        -- right. split; [simpl; intros [H|H]; [congruence|tauto]|]. rewrite E2. f_equal. simpl length. lia.
Qed.
Lemma untied_length tl ps : length (untied tl 0 ps) = length (lidx tl ps 0 (length ps)).
Proof. pose proof (untied_idx tl ps []) as E. apply (f_equal (@length _)) in E. now rewrite !map_length in E. Qed.

Lemma find_comps_ok c target : forall comps j,
  (exists A B, singles comps = A ++ Single c target :: B /\ find_comps (k_heap k) comps c target j = inl (j + Z.of_nat (length A))) \/
  (~ In (Single c target) (singles comps) /\ find_comps (k_heap k) comps c target j = inr (j + Z.of_nat (length (singles comps)))).
Proof.
  induction comps as [|[c' tl] comps IH]; intros j; simpl.
  - right. split; auto. f_equal. lia.
  - destruct (Z.eqb_spec c c') as [->|Hn].
    + pose proof (find_in_ok tl target (m_par (k_heap k c')) [] j (or_intror I)) as H. simpl in H. destruct H as [(A & B & E1 & E2)|[E1 E2]]; rewrite E2.
      * left. exists (map (Single c') A), (map (Single c') B ++ singles comps). rewrite E1, map_app. simpl. rewrite <- app_assoc. split; auto.
        now rewrite map_length.
      * destruct (IH (j + Z.of_nat (length (lidx tl (m_par (k_heap k c')) 0 (length (m_par (k_heap k c'))))))) as [(A & B & F1 & F2)|[F1 F2]]; rewrite F2.
        -- left. eexists (_ ++ A), B. rewrite F1, <- app_assoc. split; [reflexivity|]. f_equal. rewrite app_length, map_length. lia.
        -- right. split; [|f_equal; rewrite app_length, map_length; lia]. rewrite in_app_iff. intros [H|H]; [|tauto].
           apply in_map_iff in H as (x & Ex & Hx). injection Ex as ->. auto.
    + destruct (IH (j + Z.of_nat (length (untied tl 0 (m_par (k_heap k c')))))) as [(A & B & F1 & F2)|[F1 F2]]; rewrite F2, untied_length.
      * left. eexists (_ ++ A), B. rewrite F1, <- app_assoc. split; [reflexivity|]. f_equal. rewrite app_length, map_length. lia.
      * right. split; [|f_equal; rewrite app_length, map_length; lia]. rewrite in_app_iff. intros [H|H]; [|tauto].
        apply in_map_iff in H as (x & Ex & Hx). injection Ex as -> ->. auto.
Qed.

Lemma find_tied_none c i : forall ts j, existsb (fun t => has_member t c i) ts = false -> find_tied ts c i j = -1.
Proof. induction ts as [|t ts IH]; intros j H; simpl in *; auto. apply orb_false_iff in H as [H1 H2]. rewrite H1. auto. Qed.
Lemma find_tied_some c i : forall ts j, existsb (fun t => has_member t c i) ts = true ->
  exists g t, nth_error ts g = Some t /\ In (c, i) (t_mem t) /\ find_tied ts c i j = j + Z.of_nat g.
Proof.
  induction ts as [|t ts IH]; intros j H; simpl in *; [discriminate|]. destruct (has_member t c i) eqn:E.
  - exists 0%nat, t. split; auto. split; [now apply has_member_spec|lia].
  - destruct (IH (j + 1) H) as (g & t' & H1 & H2 & H3). exists (S g), t'. split; auto. split; auto. rewrite H3. lia.
Qed.
Lemma fgroups_all : (forall t, In t (k_tied k) -> q_free (t_par t) = true) -> fgroups = map Group (seq 0 (length (k_tied k))).
Proof.
  intros H. unfold fgroups. f_equal.
  assert (forall l, (forall g, In g l -> group_free k g = true) -> filter (group_free k) l = l) as HH.
  { induction l as [|g l IH]; intros Hg; simpl; auto. rewrite (Hg g) by (simpl; auto). f_equal. apply IH. intros; apply Hg; simpl; auto. }
  apply HH. intros g Hg. apply in_seq in Hg. unfold group_free, group.
  destruct (nth_error (k_tied k) g) eqn:E; [apply H; eapply nth_error_In; eauto|]. apply nth_error_None in E. lia.
Qed.

Lemma findIndex_ok c i : (in_some_group k c i -> forall t, In t (k_tied k) -> q_free (t_par t) = true) ->
  (exists j e, findIndex k c i = Z.of_nat j /\ nth_error (entries k) j = Some e /\ stands_for k e c i) \/
  (findIndex k c i = -1 /\ forall e, In e (entries k) -> ~ stands_for k e c i).
Proof.
  intros H. rewrite entries_eq. unfold findIndex. destruct (find_comps_ok c i (k_comps k) 0) as [(A & B & F1 & F2)|[F1 F2]]; rewrite F2.
  - left. exists (length A), (Single c i). split; [lia|]. split; [|simpl; auto]. rewrite F1, <- app_assoc. simpl. apply nth_mid.
  - destruct (existsb (fun t => has_member t c i) (k_tied k)) eqn:Et.
    + left. destruct (find_tied_some c i (k_tied k) (0 + Z.of_nat (length (singles (k_comps k)))) Et) as (g & t & G1 & G2 & G3). rewrite G3.
      assert (in_some_group k c i) as Hin by (exists t; split; [eapply nth_error_In; eauto|auto]).
      rewrite (fgroups_all (H Hin)). exists (length (singles (k_comps k)) + g)%nat, (Group g). split; [lia|]. split; [|exists t; auto].
      rewrite nth_error_app2 by lia. replace (length (singles (k_comps k)) + g - length (singles (k_comps k)))%nat with g by lia.
      rewrite nth_error_map. rewrite nth_error_nth' with (d := 0%nat).
      * simpl. f_equal. f_equal. rewrite seq_nth; [lia|]. apply nth_error_Some. congruence.
      * rewrite seq_length. apply nth_error_Some. congruence.
    + right. split; [now apply find_tied_none|]. intros e He Hs. apply in_app_iff in He as [He|He].
      * destruct e as [c' i'|g].
        -- destruct Hs as [-> ->]. contradiction.
        -- unfold singles in He. apply in_flat_map in He as (p & _ & He). apply in_map_iff in He as (x & Ex & _). discriminate.
      * unfold fgroups in He. apply in_map_iff in He as (g & <- & Hg). destruct Hs as (t & Ht & Hi). 
        assert (existsb (fun t => has_member t c i) (k_tied k) = true); [|congruence]. apply existsb_exists. exists t.
        split; [eapply nth_error_In; eauto|now apply has_member_spec].
Qed.
End K.

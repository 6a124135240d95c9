(** C62: a composite likelihood is one function of one vector of free parameters. *)
From Coq Require Import Reals String Lra.
From Verif Require Import Base DerivSpec UnbinGrad CmpModel CmpSpec CmpProofs CmpSet CmpMain CmpGrad.
Local Open Scope string_scope.
Local Open Scope list_scope.

Lemma bridge k : ordinary k -> alike k -> exists names, List.Forall (good1 (k_norm k) names) (k_comps k).
Proof.
  intros [HN HO] HA. destruct (k_comps k) as [|[c0 n0] r] eqn:E; [tauto|]. rewrite <- E in *.
  destruct (HO c0 n0) as (ND0 & s0 & I0 & _). { rewrite E. left. auto. }
  exists (free_shape_names (k_norm k) s0). apply Forall_forall. intros [c n] Hc. destruct (HO c n Hc) as (ND & s & I & NDp & Hn & HI).
  split; auto. exists s. cbn [fst snd]. split; [now apply in_find|]. repeat split; auto.
  change (map p_name (filter (shapeT (k_norm k)) (sp_pars s))) with (free_shape_names (k_norm k) s).
  apply (HA c n s c0 n0 s0); auto. rewrite E. left. auto.
Qed.

(** The number of free parameters is the length of the list of free parameters. *)
Theorem C62_count : forall k l, getFreeParams k = Ok l -> getNumFreeParams k = Ok (length l).
Proof.
  intros k l H. unfold getFreeParams, getNumFreeParams in *.
  assert (A : forall cs ns b, norms_free cs = Ok ns -> exists sh, (b = false -> sh = 0) /\
     (forall cn r s, cs = cn :: r -> common cn = Ok s -> b = true -> sh = length (shape_free (k_norm k) s)) /\
     count_loop (k_norm k) b cs = Ok (length (concat (map other_free cs)) + sh + length ns)).
  { induction cs as [|cn cs IH]; intros ns b HN; simpl in *.
    - injection HN as <-. exists 0. repeat split; auto. intros; discriminate.
    - destruct (common cn) as [s| |] eqn:EC; try discriminate. simpl in *. destruct (norm_par s) as [np| |] eqn:EN; try discriminate. simpl in *.
      destruct (norms_free cs) as [ns'| |]; try discriminate. simpl in HN. injection HN as <-.
      destruct (IH ns' false eq_refl) as (sh & Z & _ & E). rewrite (Z eq_refl) in E. rewrite E. simpl.
      exists (if b then length (shape_free (k_norm k) s) else 0). repeat split.
      + intros ->. auto.
      + intros cn' r s' X Y ->. injection X as <- <-. rewrite EC in Y. now injection Y as <-.
      + f_equal. rewrite app_length. destruct b, (p_free np); simpl; lia. }
  destruct (k_comps k) as [|cn r] eqn:E; [discriminate|]. destruct (common cn) as [s| |] eqn:EC; try discriminate. cbn [obind] in H.
  destruct (norms_free (cn :: r)) as [ns| |] eqn:EN; try discriminate. cbn [obind] in H. injection H as <-.
  destruct (A _ _ true EN) as (sh & _ & B & C). rewrite C. f_equal. cbn [map concat]. rewrite (B cn r s eq_refl EC eq_refl), !app_length. lia.
Qed.
Print Assumptions C62_count.

(** Setting as many values as there are free parameters succeeds, and reading the free parameters back gives
    those values.  Not covered: common sources with different sets of free shape parameters. *)
Theorem C62_set_get_partial : forall k n vals, ordinary k -> alike k -> getNumFreeParams k = Ok n -> length vals = n ->
  exists k', setFreeParamValues vals k = Ok k' /\ fetchFreeValues k' = Ok vals /\ getNumFreeParams k' = Ok n.
Proof.
  intros k n vals HO HA HC HL. destruct (bridge k HO HA) as (names & HG). destruct HO as [HN _].
  unfold getNumFreeParams in HC. rewrite (count_ok _ _ _ HG) in HC. injection HC as HC.
  assert (HC' : total_count mO (k_comps k) + length names + total_count (mN (k_norm k)) (k_comps k) = n). { destruct (k_comps k); [tauto|auto]. }
  destruct (set_ok k names HG HN vals ltac:(lia)) as (l & A & B). exists (syncParams (with_comps k l)). split; auto.
  destruct (rel_values _ names _ _ _ _ _ B HG) as (V1 & V2 & V3 & V4 & V5 & V6 & V7).
  { rewrite firstn_length, skipn_length. lia. } { lia. } { rewrite skipn_length. lia. }
  destruct l as [|cn l0] eqn:El. { simpl in V7. destruct (k_comps k); [tauto|discriminate]. }
  destruct (get_ok (syncParams (with_comps k (cn :: l0))) names cn l0 eq_refl V4) as (ps & G1 & G2). cbn [syncParams with_comps k_comps k_norm] in *.
  split.
  - unfold fetchFreeValues. rewrite G1. cbn [obind]. f_equal. rewrite G2. inversion V3 as [|? ? V31 _]; subst. rewrite V31. rewrite V1, V2.
    rewrite <- (firstn_skipn (total_count mO (k_comps k)) vals) at 4. f_equal. rewrite <- skipn_skip.
    rewrite <- (firstn_skipn (length names) (skipn (total_count mO (k_comps k)) vals)) at 3. f_equal. rewrite firstn_all2; auto. rewrite !skipn_length. lia.
  - unfold getNumFreeParams. cbn [syncParams with_comps k_comps k_norm]. rewrite (count_ok _ _ _ V4). f_equal. rewrite V5, V6. lia.
Qed.
Print Assumptions C62_set_get_partial.

Lemma set_inv k n vals k' : ordinary k -> alike k -> getNumFreeParams k = Ok n -> length vals = n -> setFreeParamValues vals k = Ok k' ->
  exists names l, List.Forall (good1 (k_norm k) names) (k_comps k) /\ k' = syncParams (with_comps k l) /\
   total_count mO (k_comps k) + length names + total_count (mN (k_norm k)) (k_comps k) = length vals /\
   rel (k_norm k) (k_comps k) l vals (firstn (length names) (skipn (total_count mO (k_comps k)) vals)) (skipn (total_count mO (k_comps k) + length names) vals).
Proof.
  intros HO HA HC HL HS. destruct (bridge k HO HA) as (names & HG). destruct HO as [HN _].
  unfold getNumFreeParams in HC. rewrite (count_ok _ _ _ HG) in HC. injection HC as HC.
  assert (HC' : total_count mO (k_comps k) + length names + total_count (mN (k_norm k)) (k_comps k) = n). { destruct (k_comps k); [tauto|auto]. }
  destruct (set_ok k names HG HN vals ltac:(lia)) as (l & A & B). exists names, l. rewrite A in HS. injection HS as <-. repeat split; auto. lia.
Qed.

(** After setting, a shape parameter that is free in one common source has the same value in all of them. *)
Theorem C62_tied_partial : forall k n vals k', ordinary k -> alike k -> getNumFreeParams k = Ok n -> length vals = n ->
  setFreeParamValues vals k = Ok k' ->
  forall i src q j src', is_common k' i src -> holds k' i src q -> p_free q = true -> p_name q <> k_norm k -> is_common k' j src' ->
  exists q', holds k' j src' q' /\ p_name q' = p_name q /\ p_free q' = true /\ p_val q' = p_val q.
Proof.
  intros k n vals k' HO HA HC HL HS i src q j src' CI HI HF HNm CJ.
  destruct (set_inv k n vals k' HO HA HC HL HS) as (names & l & HG & -> & LN & B).
  destruct (rel_values _ names _ _ _ _ _ B HG) as (V1 & V2 & V3 & V4 & _).
  { rewrite firstn_length, skipn_length. lia. } { lia. } { rewrite skipn_length. lia. }
  set (Sv := firstn (length names) (skipn (total_count mO (k_comps k)) vals)) in *. clearbody Sv.
  assert (K : forall c n, In (c, n) l -> exists s, In (n, s) (c_srcs c) /\ NoDup (map fst (c_srcs c)) /\ map p_name (filter (shapeT (k_norm k)) (sp_pars s)) = names /\ map p_val (filter (shapeT (k_norm k)) (sp_pars s)) = Sv).
  { intros c m Hc. rewrite Forall_forall in V3, V4. specialize (V3 _ Hc). destruct (V4 _ Hc) as (ND & s & F & NDp & Hn & HI' & Hsh). cbn [fst snd] in *.
    exists s. split; [now apply find_in|]. repeat split; auto. rewrite <- V3. unfold mS, vs, vals_of. cbn [fst snd]. rewrite <- pick_map. f_equal. symmetry.
    apply (pick_common m (TS m (k_norm k)) (shapeT (k_norm k)) s (TS_t _ _) (TS_no _ _)); auto. }
  destruct CI as (c & CI), CJ as (c' & CJ), HI as (c1 & n1 & s1 & H1 & H2 & H3). cbn [syncParams with_comps k_comps] in *.
  rewrite H1 in CI. injection CI as -> ->. destruct (K c src (nth_error_In _ _ H1)) as (s & A1 & A2 & A3 & A4). destruct (K c' src' (nth_error_In _ _ CJ)) as (s' & B1 & B2 & B3 & B4).
  assert (s1 = s). { pose proof (in_find _ _ _ A2 A1). pose proof (in_find _ _ _ A2 H2). congruence. } subst s1.
  assert (HQ : In q (filter (shapeT (k_norm k)) (sp_pars s))). { apply filter_In. split; auto. unfold shapeT. rewrite HF. apply String.eqb_neq in HNm. now rewrite HNm. }
  destruct (In_nth_error _ _ HQ) as (x & HX).
  assert (HX1 : nth_error names x = Some (p_name q)). { rewrite <- A3. now rewrite nth_error_map, HX. }
  assert (HX2 : nth_error Sv x = Some (p_val q)). { rewrite <- A4. now rewrite nth_error_map, HX. }
  rewrite <- B3, nth_error_map in HX1. rewrite <- B4, nth_error_map in HX2.
  destruct (nth_error (filter (shapeT (k_norm k)) (sp_pars s')) x) as [q'|] eqn:EQ; [|discriminate]. simpl in *. injection HX1 as HX1. injection HX2 as HX2.
  apply nth_error_In in EQ. apply filter_In in EQ. destruct EQ as [EQ1 EQ2]. exists q'. repeat split; auto.
  - exists c', src', s'. cbn [syncParams with_comps k_comps]. auto.
  - unfold shapeT in EQ2. now destruct (p_free q').
Qed.
Print Assumptions C62_tied_partial.

(** Setting changes values of free parameters only: every fixed parameter stays as it was, and every parameter
    stays where it was with its name and free flag. *)
Theorem C62_frame_partial : forall k n vals k', ordinary k -> alike k -> getNumFreeParams k = Ok n -> length vals = n ->
  setFreeParamValues vals k = Ok k' ->
  (forall i src q, holds k i src q -> p_free q = false -> holds k' i src q) /\
  (forall i src q, holds k i src q -> exists v, holds k' i src (mk_par (p_name q) v (p_free q))).
Proof.
  intros k n vals k' HO HA HC HL HS. destruct (set_inv k n vals k' HO HA HC HL HS) as (names & l & HG & -> & LN & B).
  assert (M : forall l0 l' O Sv N i c m, rel (k_norm k) l0 l' O Sv N -> nth_error l0 i = Some (c, m) ->
     exists s', nth_error l' i = Some (with_srcs c s', m) /\ map stag s' = map stag (c_srcs c) /\ exists o a b, vals_of s' = fill (mN (k_norm k) (c, m)) (fill (mS (k_norm k) (c, m)) (fill (mO (c, m)) (vs (c, m)) o) a) b).
  { induction l0 as [|cn l0 IH]; intros [|cn' l'] O Sv N i c m H Hi; simpl in *; try tauto; try (destruct i; discriminate).
    destruct H as [(s' & -> & T & V) H]. destruct i as [|i]; simpl in *; [|eapply IH; eauto].
    injection Hi as ->. exists s'. split; auto. split; auto. eexists _, _, _. exact V. }
  assert (D : forall (T : list bool) v x p w, length T = length v -> nth_error T p = Some false -> nth_error v p = Some w -> nth_error (fill T v x) p = Some w).
  { induction T as [|b T IH]; intros [|v0 v] x p w HT H1 H2; simpl in *; try discriminate; try (destruct p; discriminate).
    destruct p as [|p]; simpl in *.
    - injection H1 as ->. auto.
    - destruct b; [destruct x|]; simpl; apply IH; auto. }
  (* position of a parameter in the flattened list *)
  assert (P : forall srcs src s q, In (src, s) srcs -> In q (sp_pars s) -> exists p, forall srcs', map stag srcs' = map stag srcs ->
     exists s' q', In (src, s') srcs' /\ In q' (sp_pars s') /\ p_name q' = p_name q /\ p_free q' = p_free q /\ nth_error (vals_of srcs') p = Some (p_val q') /\ (srcs' = srcs -> q' = q) /\
       (forall T, nth_error (mask T srcs') p = Some (T src (p_name q) (p_free q)))).
  { intros srcs. induction srcs as [|[n0 t] srcs IH]; intros src s q H1 H2; simpl in H1; [tauto|]. destruct H1 as [H1|H1].
    - injection H1 as -> ->. destruct (In_nth_error _ _ H2) as (p & HP). exists p. intros [|[n1 t1] srcs'] HT; simpl in HT; [discriminate|]. injection HT as E1 E2 E3 E4 E5. simpl in *. subst n1.
      assert (HQ : exists q', nth_error (sp_pars t1) p = Some q' /\ p_name q' = p_name q /\ p_free q' = p_free q).
      { assert (X : nth_error (ptags (sp_pars t1)) p = Some (p_name q, p_free q)). { rewrite E2. unfold ptags. now rewrite nth_error_map, HP. }
        unfold ptags in X. rewrite nth_error_map in X. destruct (nth_error (sp_pars t1) p) as [q'|]; [|discriminate]. simpl in X. injection X as X1 X2. eauto. }
      destruct HQ as (q' & Q1 & Q2 & Q3). exists t1, q'. assert (LT : p < length (sp_pars t1)). { apply nth_error_Some. rewrite Q1. discriminate. } repeat split; auto.
      + eapply nth_error_In; eauto.
      + unfold vals_of, all_pars. simpl. rewrite map_app, nth_error_app1 by (rewrite map_length; auto). now rewrite nth_error_map, Q1.
      + intros X. injection X as -> ->. congruence.
      + intros T. unfold mask. simpl. rewrite nth_error_app1 by (unfold smask; simpl; rewrite map_length; auto). unfold smask. simpl. rewrite nth_error_map, Q1. simpl. now rewrite Q2, Q3.
    - destruct (IH src s q H1 H2) as (p & HP). exists (length (sp_pars t) + p). intros [|[n1 t1] srcs'] HT; simpl in HT; [discriminate|]. injection HT as E1 E2 E3 E4 E5. simpl in *. subst n1.
      destruct (HP srcs' E5) as (s' & q' & A1 & A2 & A3 & A4 & A5 & A6 & A7). exists s', q'.
      assert (LL : length (sp_pars t) = length (sp_pars t1)). { apply (f_equal (@length _)) in E2. unfold ptags in E2. rewrite !map_length in E2. auto. }
      repeat split; auto.
      + unfold vals_of, all_pars. simpl. rewrite map_app, nth_error_app2; rewrite map_length; [|lia]. replace (length (sp_pars t) + p - length (sp_pars t1)) with p by lia. exact A5.
      + intros X. injection X as -> ->. auto.
      + intros T. unfold mask. simpl. rewrite nth_error_app2; unfold smask; simpl; rewrite map_length; [|lia]. replace (length (sp_pars t) + p - length (sp_pars t1)) with p by lia. apply A7. }
  assert (Q : forall i src q, holds k i src q -> exists q', holds (syncParams (with_comps k l)) i src q' /\ p_name q' = p_name q /\ p_free q' = p_free q /\ (p_free q = false -> p_val q' = p_val q)).
  { intros i src q (c & m & s & H1 & H2 & H3). destruct (M _ _ _ _ _ _ _ _ B H1) as (s' & A1 & A2 & o & a & b & A3).
    destruct (P _ _ _ _ H2 H3) as (p & HP). destruct (HP s' A2) as (t & q' & B1 & B2 & B3 & B4 & B5 & _ & _). destruct (HP (c_srcs c) eq_refl) as (t2 & q2 & C1 & C2 & C3 & C4 & C5 & C6 & C7). rewrite (C6 eq_refl) in C5.
    exists q'. repeat split; auto.
    - exists (with_srcs c s'), m, t. cbn [syncParams with_comps k_comps with_srcs c_srcs]. auto.
    - intros HF. rewrite A3 in B5. assert (W : nth_error (vals_of s') p = Some (p_val q)).
      { rewrite A3. unfold mO, mS, mN, vs. cbn [fst snd]. repeat apply D; rewrite ?fill_length; try apply mask_length; try (rewrite C7, HF; reflexivity). exact C5. }
      rewrite A3 in W. congruence. }
  split; intros i src q H.
  - intros HF. destruct (Q i src q H) as (q' & A & A1 & A2 & A3). assert (q' = q). { destruct q, q'; simpl in *. subst. f_equal. auto. } now subst.
  - destruct (Q i src q H) as (q' & A & A1 & A2 & A3). exists (p_val q'). destruct q'; simpl in *. now subst.
Qed.
Print Assumptions C62_frame_partial.

(** The value is the sum of the values of the components. *)
Theorem C62_value : forall k, snd (value k) = fold_right (fun cn a => c_fun (fst cn) (all_vals (fst cn)) + a)%R 0%R (k_comps k).
Proof.
  intros k. unfold value. assert (A : forall l acc, snd (value_loop l acc) = (acc + fold_right (fun cn a => c_fun (fst cn) (all_vals (fst cn)) + a) 0 l)%R).
  { induction l as [|[c n] l IH]; intros acc; simpl; [lra|]. destruct (value_loop l _) eqn:E. simpl. change r with (snd (l0, r)). rewrite <- E, IH. lra. }
  destruct (value_loop (k_comps k) 0) eqn:E. simpl. change r with (snd (l, r)). rewrite <- E, A. lra.
Qed.
Print Assumptions C62_value.

Lemma as_function_total k names vals : List.Forall (good1 (k_norm k) names) (k_comps k) -> k_comps k <> [] ->
  total_count mO (k_comps k) + length names + total_count (mN (k_norm k)) (k_comps k) = length vals ->
  as_function k vals = Some (total (k_norm k) (k_comps k) (firstn (total_count mO (k_comps k)) vals) (firstn (length names) (skipn (total_count mO (k_comps k)) vals)) (skipn (length names) (skipn (total_count mO (k_comps k)) vals))).
Proof.
  intros HG HN HL. destruct (set_ok k names HG HN vals ltac:(lia)) as (l & A & B). unfold as_function. rewrite A. f_equal.
  unfold value. cbn [syncParams with_comps k_comps]. destruct (value_loop l 0) eqn:E. simpl. change r with (snd (l0, r)). rewrite <- E, (value_total _ _ _ _ _ _ _ B), Rplus_0_l.
  rewrite skipn_skip. rewrite <- (firstn_skipn (total_count mO (k_comps k)) vals) at 1. apply total_app_l. apply firstn_app_eq. lia.
Qed.

(** After setting values, when no component uses a model computed earlier, getFreeDerivs lists the partial
    derivatives of the joint value with respect to the entries of the vector.  Not covered: common sources with
    different sets of free shape parameters, and binned components whose model was computed before the
    values were set (both shown below to be wrong). *)
Theorem C62_gradient_partial : forall k n vals k', ordinary k -> alike k -> getNumFreeParams k = Ok n -> length vals = n ->
  setFreeParamValues vals k = Ok k' -> up_to_date k' ->
  (forall c m, In (c, m) (k_comps k') -> honest c (all_vals c)) ->
  exists ds, snd (getFreeDerivs k') = Ok ds /\ length ds = n /\
    forall j d, nth_error ds j = Some d -> partial_at (as_function k) vals j d.
Proof.
  intros k n vals k' HO HA HC HL HS HU HH. destruct (set_inv k n vals k' HO HA HC HL HS) as (names & l & HG & -> & LN & B).
  destruct HO as [HN _]. set (nO := total_count mO (k_comps k)) in *. set (Sv := firstn (length names) (skipn nO vals)) in *.
  assert (LSv : length Sv = length names). { unfold Sv. rewrite firstn_length, skipn_length. lia. }
  destruct (rel_values _ names _ _ _ _ _ B HG LSv) as (V1 & V2 & V3 & V4 & V5 & V6 & V7). { lia. } { rewrite skipn_length. lia. }
  cbn [syncParams with_comps k_comps] in HH.
  assert (HON : List.Forall hon l).
  { apply Forall_forall. intros [c m] Hc. destruct (HH c m Hc) as [L P]. unfold hon, grad, vs, vals_of. cbn [fst snd]. apply partial_G; auto. }
  assert (HGL : forall cn, In cn l -> length (grad cn) = length (vs cn)). { intros [c m] Hc. destruct (HH c m Hc) as [L _]. exact L. }
  destruct (fold_all (k_norm k) names l V4 HGL [] (repeat 0%R (length names)) [] 0 (repeat_length _ _)) as (b' & F & FL).
  set (ds := concat (map (fun cn => pick (mO cn) (grad cn)) l) ++ fold_left (fun a cn => vplus a (pick (mS (k_norm k) cn) (grad cn))) l (repeat 0%R (length names)) ++ concat (map (fun cn => pick (mN (k_norm k) cn) (grad cn)) l)).
  assert (HD : snd (getFreeDerivs (syncParams (with_comps k l))) = Ok ds).
  { unfold getFreeDerivs. cbn [syncParams with_comps k_comps k_norm snd]. destruct l as [|cn r] eqn:El. { simpl in V7. destruct (k_comps k); [tauto|discriminate]. } rewrite <- El in *.
    assert (G1 : good1 (k_norm k) names cn). { rewrite El in V4. now inversion V4. } destruct G1 as (ND & s & HF & NDp & Hn & HI & Hsh). unfold common. rewrite HF. cbn [obind].
    rewrite shape_free_eq. replace (length (filter (shapeT (k_norm k)) (sp_pars s))) with (length names) by (rewrite <- Hsh; now rewrite map_length).
    replace (concat (map (fun cn => snd (comp_derivs (fst cn))) l)) with (concat (map dlist l)).
    2: { f_equal. apply map_ext_in. intros [c m] Hc. symmetry. apply comp_derivs_now. intros Hca. apply (HU c m); auto. }
    replace (Nat.ltb (length (concat (map flags l))) (length (concat (map dlist l)))) with false by (symmetry; apply Nat.ltb_ge; lia).
    rewrite Nat.mul_0_l in F. rewrite F. cbn [obind]. unfold ds. rewrite !app_nil_l. rewrite ?El. reflexivity. }
  assert (HG2 : G (fun v => total (k_norm k) (k_comps k) (firstn nO v) (firstn (length names) (skipn nO v)) (skipn (length names) (skipn nO v))) vals ds).
  { pose proof (firstn_skipn nO vals) as S1. pose proof (firstn_skipn (length names) (skipn nO vals)) as S2. fold Sv in S2.
    assert (LO : length (firstn nO vals) = nO) by (apply firstn_app_eq; lia).
    assert (B2 : rel (k_norm k) (k_comps k) l (firstn nO vals) Sv (skipn (length names) (skipn nO vals))).
    { rewrite skipn_skip. clear -B LO. unfold nO in *. clearbody Sv. revert B LO. generalize (skipn (total_count mO (k_comps k) + length names) vals). generalize l vals. generalize (k_comps k).
      induction l0 as [|cn l0 IH]; intros [|cn' l'] O N H LO; simpl in *; try tauto. rewrite total_cons in *. destruct H as [(s' & E & T & V) H]. split.
      - exists s'. repeat split; auto. rewrite V. do 3 f_equal. rewrite firstn_firstn. f_equal. lia.
      - rewrite <- firstn_skipn_comm. apply IH; auto. rewrite firstn_length, skipn_length in *. lia. }
    rewrite <- S1 at 1. unfold ds.
    pose proof (G_split (firstn nO vals) (skipn nO vals) (concat (map (fun cn => pick (mO cn) (grad cn)) l))
      (fold_left (fun a cn => vplus a (pick (mS (k_norm k) cn) (grad cn))) l (repeat 0%R (length names)) ++ concat (map (fun cn => pick (mN (k_norm k) cn) (grad cn)) l))
      (fun a r => total (k_norm k) (k_comps k) a (firstn (length names) r) (skipn (length names) r))) as GS. rewrite LO in GS. apply GS; clear GS.
    - fold Sv. eapply total_O; eauto. rewrite !skipn_length. lia.
    - rewrite <- S2 at 1.
      pose proof (G_split Sv (skipn (length names) (skipn nO vals)) (fold_left (fun a cn => vplus a (pick (mS (k_norm k) cn) (grad cn))) l (repeat 0%R (length names))) (concat (map (fun cn => pick (mN (k_norm k) cn) (grad cn)) l))
        (fun a r => total (k_norm k) (k_comps k) (firstn nO vals) a r)) as GS. rewrite LSv in GS. apply GS; clear GS.
      + eapply G_ext; [|eapply (total_S (k_norm k) names _ _ _ _ _ B2 HG LSv) with (K := fun _ => 0%R)]; auto.
        * intros z Hz. simpl. apply Rplus_0_l.
        * lia.
        * rewrite !skipn_length. lia.
        * rewrite <- LSv. apply G_const.
      + eapply total_N; eauto; try lia. rewrite !skipn_length. lia. }
  exists ds. split; auto. split; [rewrite (G_len _ _ _ HG2); auto|]. intros j d Hj.
  destruct (G_partial _ _ _ _ _ HG2 Hj) as (v0 & dl & f & P1 & P2 & P3 & P4). exists v0, dl, f. repeat split; auto.
  intros v Hv. rewrite (as_function_total k names); auto.
  rewrite upd_length. auto.
Qed.
Print Assumptions C62_gradient_partial.

(** Asking for the value first makes every component's model current. *)
Theorem C62_value_refreshes : forall k, up_to_date (fst (value k)).
Proof.
  intros k. unfold value. assert (A : forall l acc c n, In (c, n) (fst (value_loop l acc)) -> c_cached c = true -> c_at c = Some (all_vals c)).
  { induction l as [|[c0 n0] l IH]; intros acc c n H HC; simpl in H; [tauto|]. destruct (value_loop l _) eqn:E. simpl in H. destruct H as [H|H].
    - injection H as <- <-. destruct (c_cached c0) eqn:E0; simpl in *; [reflexivity|congruence].
    - eapply IH; [|auto]. rewrite E. exact H. }
  destruct (value_loop (k_comps k) 0) eqn:E. simpl. intros c n H HC. right. eapply A; eauto. rewrite E. exact H.
Qed.
Print Assumptions C62_value_refreshes.

(** Components can only be added when they contain the named source and that source is of the same kind as
    the ones added before. *)
Theorem C62_add : forall ops k,
  mfold (fun k op => match op with (pos, name, c) => addComponent pos name c k end) ops empty_composite = Ok k ->
  forall c n, In (c, n) (k_comps k) -> exists s, In (n, s) (c_srcs c) /\ sp_kind s = k_kind k.
Proof.
  intros ops. assert (A : forall k0 k, (forall c n, In (c, n) (k_comps k0) -> exists s, In (n, s) (c_srcs c) /\ sp_kind s = k_kind k0) ->
    mfold (fun k op => match op with (pos, name, c) => addComponent pos name c k end) ops k0 = Ok k ->
    forall c n, In (c, n) (k_comps k) -> exists s, In (n, s) (c_srcs c) /\ sp_kind s = k_kind k).
  { induction ops as [|[[pos name] c0] ops IH]; intros k0 k I H; simpl in H; [injection H as <-; auto|].
    destruct (addComponent pos name c0 k0) as [k1| |] eqn:E; simpl in H; try discriminate. apply (IH k1 k); auto. clear H IH.
    unfold addComponent in E. destruct (find_src name (c_srcs c0)) as [s|] eqn:EF; [|discriminate]. apply find_in in EF.
    assert (S : forall l c n, In (c, n) (firstn pos l ++ (c0, name) :: skipn pos l) -> (c, n) = (c0, name) \/ In (c, n) l).
    { intros l c n HI. apply in_app_or in HI. destruct HI as [HI|[HI|HI]]; auto; right; rewrite <- (firstn_skipn pos l); apply in_or_app; auto. }
    destruct (k_comps k0) eqn:EC.
    - destruct (norm_par s) as [np| |]; simpl in E; try discriminate. injection E as <-. intros c n HI. unfold with_comps in *. cbn [k_comps k_kind] in *.
      destruct (S _ _ _ HI) as [X|[]]. injection X as -> ->. exists s. auto.
    - destruct (k_kind k0 =? sp_kind s) eqn:EK; simpl in E; [|discriminate]. injection E as <-. intros c n HI. unfold with_comps in *. cbn [k_comps k_kind] in *. apply String.eqb_eq in EK.
      destruct (S _ _ _ HI) as [X|X].
      + injection X as -> ->. exists s. auto.
      + rewrite EC in X. apply I. exact X. }
  intros k H. apply (A empty_composite k); auto. intros c n [].
Qed.
Print Assumptions C62_add.

(** ** cases *)
Lemma partial_one F p i d1 d2 : partial_at F p i d1 -> partial_at F p i d2 -> d1 = d2.
Proof.
  intros (v & a & f & Hv & Ha & Hf & Df) (w & b & g & Hw & Hb & Hg & Dg). assert (w = v) by congruence. subst w.
  apply (uniqueness_limite g v); auto. apply UnbinGrad.derive_loc with (f := f) (delta := Rmin a b); auto; [now apply Rmin_glb_lt|].
  intros y Hy. assert (Some (f y) = Some (g y)) as E; [|now injection E]. rewrite <- Hf, <- Hg; auto; eapply Rlt_le_trans; eauto using Rmin_l, Rmin_r.
Qed.

Lemma line_derive a b y : derivable_pt_lim (fun t => a * t + b)%R y a.
Proof.
  assert (E : derivable_pt_lim (fun t => a * t + b)%R y (a * 1 + 0)%R).
  { apply (derivable_pt_lim_plus (fun t => a * t)%R (fun _ => b)); [|apply derivable_pt_lim_const]. apply derivable_pt_lim_scal. apply derivable_pt_lim_id. }
  now rewrite Rmult_1_r, Rplus_0_r in E.
Qed.

Definition dot (a v : list R) : R := fold_right Rplus 0%R (map (fun p => fst p * snd p)%R (combine a v)).
Lemma dot_G : forall a v, length a = length v -> G (dot a) v a.
Proof.
  induction a as [|x a IH]; intros [|y v] H; simpl in *; try discriminate; auto. split.
  - unfold dot. simpl. apply line_derive.
  - eapply G_ext; [|apply G_add_const; apply (IH v); lia]. intros l Hl. unfold dot at 1. simpl. rewrite Rplus_comm. reflexivity.
Qed.
Definition linear (a : list R) (srcs : list (string * spectrum)) : comp := mk_comp srcs (dot a) (fun _ _ => a) false None.
Lemma linear_honest a s v : length a = length v -> honest (linear a s) v.
Proof. intros H. split; auto. intros i d Hi. eapply G_partial; [apply dot_G; auto|auto]. Qed.

Definition dm (p i : R) (free : bool) : spectrum := mk_spec [mk_par "Prefactor" p true; mk_par "Index" i free] "Prefactor" "PowerLaw".
Definition gal (g : R) : spectrum := mk_spec [mk_par "Value" g true] "Value" "ConstantValue".
Definition pair_of (free2 : bool) : composite :=
  mk_composite [(linear [2; 3; 5]%R [("DM", dm 1 2 true); ("gal", gal 4)], "DM"); (linear [7; 11]%R [("DM", dm 1 2 free2)], "DM")] "Prefactor" "PowerLaw" [].

Lemma pair_ordinary b : ordinary (pair_of b).
Proof.
  split; [discriminate|]. intros c n [H|[H|[]]]; injection H as <- <-; simpl; (split; [repeat constructor; simpl; intuition discriminate|]).
  all: eexists; split; [left; reflexivity|]; simpl; repeat split; auto; repeat constructor; simpl; intuition discriminate.
Qed.
Lemma pair_alike : alike (pair_of true).
Proof.
  intros c n s c' n' s' [H|[H|[]]] H1 [H'|[H'|[]]] H1'; injection H as <- <-; injection H' as <- <-; simpl in *;
  repeat match goal with H : _ \/ _ |- _ => destruct H as [H|H] | H : False |- _ => destruct H | H : (_, _) = (_, _) |- _ => injection H; clear H; intros; subst end; try discriminate; reflexivity.
Qed.

Example C62_case : exists k', ordinary (pair_of true) /\ alike (pair_of true) /\ getNumFreeParams (pair_of true) = Ok 4 /\
  setFreeParamValues [10; 20; 30; 40]%R (pair_of true) = Ok k' /\ up_to_date k' /\
  (forall c m, In (c, m) (k_comps k') -> honest c (all_vals c)) /\
  fetchFreeValues k' = Ok [10; 20; 30; 40]%R /\
  map (fun cn => all_vals (fst cn)) (k_comps k') = [[30; 20; 10]; [40; 20]]%R /\
  snd (getFreeDerivs k') = Ok [5; 14; 2; 7]%R.
Proof.
  eexists. split; [apply pair_ordinary|]. split; [apply pair_alike|]. split; [reflexivity|]. split; [reflexivity|]. split; [|split; [|split; [|split]]].
  - intros c n [H|[H|[]]]; injection H as <- <-; discriminate.
  - intros c n [H|[H|[]]]; injection H as <- <-; apply linear_honest; reflexivity.
  - reflexivity.
  - reflexivity.
  - cbn -[Rplus Rmult]. repeat f_equal; lra.
Qed.

Ltac no_dup := repeat constructor; simpl; intuition discriminate.

(** Fixing the shape parameter in one component: the statistic still depends on it there, since setting the
    vector sets it, but the derivative leaves that component out. *)
Theorem C62_fixed_in_one_refuted : exists k vals k' ds j d, ordinary k /\ same_names k /\ getNumFreeParams k = Ok (length vals) /\
  setFreeParamValues vals k = Ok k' /\ up_to_date k' /\ (forall c m, In (c, m) (k_comps k') -> honest c (all_vals c)) /\
  snd (getFreeDerivs k') = Ok ds /\ nth_error ds j = Some d /\ ~ partial_at (as_function k) vals j d.
Proof.
  exists (pair_of false), [10; 20; 30; 40]%R. eexists. exists [5; 3; 2; 7]%R, 1, 3%R.
  split; [apply pair_ordinary|]. split; [|split; [reflexivity|split; [reflexivity|split; [|split; [|split; [|split; [reflexivity|]]]]]]].
  - intros c n s c' n' s' [H|[H|[]]] H1 [H'|[H'|[]]] H1'; injection H as <- <-; injection H' as <- <-; simpl in *;
    repeat match goal with H : _ \/ _ |- _ => destruct H as [H|H] | H : False |- _ => destruct H | H : (_, _) = (_, _) |- _ => injection H; clear H; intros; subst end; try discriminate; reflexivity.
  - intros c n [H|[H|[]]]; injection H as <- <-; discriminate.
  - intros c n [H|[H|[]]]; injection H as <- <-; apply linear_honest; reflexivity.
  - cbn -[Rplus Rmult]. repeat f_equal; lra.
  - intros H. assert (P : partial_at (as_function (pair_of false)) [10; 20; 30; 40]%R 1 14%R).
    { exists 20%R, 1%R, (fun t => 14 * t + (2 * 30 + 5 * 10 + 7 * 40))%R. repeat split; auto; try lra.
      - intros v _. unfold as_function. cbn -[Rplus Rmult]. f_equal. unfold dot. cbn -[Rplus Rmult]. lra.
      - apply line_derive. }
    pose proof (partial_one _ _ _ _ _ H P). lra.
Qed.
Print Assumptions C62_fixed_in_one_refuted.

(** A shape parameter free only in a later component is not in the vector, and asking for the derivatives
    divides by zero. *)
Theorem C62_free_in_later_refuted : exists k vals k', ordinary k /\ same_names k /\ getNumFreeParams k = Ok (length vals) /\
  setFreeParamValues vals k = Ok k' /\ snd (getFreeDerivs k') = UB.
Proof.
  exists (mk_composite [(linear [2; 3]%R [("DM", dm 1 2 false)], "DM"); (linear [7; 11]%R [("DM", dm 1 2 true)], "DM")] "Prefactor" "PowerLaw" []), [30; 40]%R.
  eexists. split; [|split; [|split; [reflexivity|split; [reflexivity|reflexivity]]]].
  - split; [discriminate|]. intros c n [H|[H|[]]]; injection H as <- <-; simpl; (split; [no_dup|]); eexists; split; [left; reflexivity| |left; reflexivity|]; simpl; repeat split; auto; no_dup.
  - intros c n s c' n' s' [H|[H|[]]] H1 [H'|[H'|[]]] H1'; injection H as <- <-; injection H' as <- <-; simpl in *;
    repeat match goal with H : _ \/ _ |- _ => destruct H as [H|H] | H : False |- _ => destruct H | H : (_, _) = (_, _) |- _ => injection H; clear H; intros; subst end; try discriminate; reflexivity.
Qed.
Print Assumptions C62_free_in_later_refuted.

(** A binned component whose model was computed before: setting values through the composite does not tell
    it, and the derivatives are those of the old model. *)
Theorem C62_stale_refuted : exists k vals k' ds j d, ordinary k /\ alike k /\ getNumFreeParams k = Ok (length vals) /\
  setFreeParamValues vals (fst (value k)) = Ok k' /\ (forall c m v, In (c, m) (k_comps k') -> length v = 1 -> honest c v) /\
  snd (getFreeDerivs k') = Ok ds /\ nth_error ds j = Some d /\ ~ partial_at (as_function k) vals j d.
Proof.
  set (c := mk_comp [("DM", mk_spec [mk_par "Prefactor" 1%R true] "Prefactor" "Scale")] (fun v => nth 0 v 0 * nth 0 v 0)%R (fun m v => [nth 0 m 0 + nth 0 v 0])%R true None).
  assert (D : forall x : R, derivable_pt_lim (fun t => t * t)%R x (x + x)%R).
  { intros x. replace (x + x)%R with (1 * x + x * 1)%R by lra. apply (derivable_pt_lim_mult (fun t => t) (fun t => t)); apply derivable_pt_lim_id. }
  exists (mk_composite [(c, "DM")] "Prefactor" "Scale" []), [3]%R. eexists. exists [4]%R, 0, 4%R.
  split; [|split; [|split; [reflexivity|split; [reflexivity|split; [|split; [|split; [reflexivity|]]]]]]].
  - split; [discriminate|]. intros x n [H|[]]; injection H as <- <-; simpl; split; [no_dup|]. eexists; split; [left; reflexivity|]; simpl; repeat split; auto; no_dup.
  - intros x n s x' n' s' [H|[]] H1 [H'|[]] H1'; injection H as <- <-; injection H' as <- <-; simpl in *.
    destruct H1 as [H1|[]], H1' as [H1'|[]]. injection H1 as <-. injection H1' as <-. reflexivity.
  - intros x m v [H|[]] HL; injection H as <- <-; split; auto. intros i d Hi. destruct v as [|y [|]]; try discriminate.
    destruct i as [|[]]; simpl in Hi; try discriminate. injection Hi as <-.
    exists y, 1%R, (fun t => t * t)%R. repeat split; auto; lra.
  - cbn -[Rplus Rmult]. repeat f_equal; lra.
  - intros H. assert (P : partial_at (as_function (mk_composite [(c, "DM")] "Prefactor" "Scale" [])) [3]%R 0 6%R).
    { exists 3%R, 1%R, (fun t => t * t)%R. repeat split; auto; try lra.
      - intros v _. unfold as_function. cbn -[Rplus Rmult]. f_equal. lra.
      - replace 6%R with (3 + 3)%R by lra. apply D. }
    pose proof (partial_one _ _ _ _ _ H P). lra.
Qed.
Print Assumptions C62_stale_refuted.

Lemma holds_all k i src q : holds k i src q -> In q (concat (map (fun cn => all_pars (c_srcs (fst cn))) (k_comps k))).
Proof.
  intros (c & n & s & A & B & C). apply in_concat. exists (all_pars (c_srcs c)). split.
  - apply in_map_iff. exists (c, n). split; auto. eapply nth_error_In; eauto.
  - unfold all_pars. apply in_concat. exists (sp_pars s). split; auto. apply in_map_iff. exists (src, s). auto.
Qed.
Lemma all_holds k q : In q (concat (map (fun cn => all_pars (c_srcs (fst cn))) (k_comps k))) -> exists i src, holds k i src q.
Proof.
  intros H. apply in_concat in H. destruct H as (l & A & B). apply in_map_iff in A. destruct A as ([c n] & <- & A). simpl in B. unfold all_pars in B.
  apply in_concat in B. destruct B as (m & B & C). apply in_map_iff in B. destruct B as ([src s] & <- & B). destruct (In_nth_error _ _ A) as (i & Hi).
  exists i, src, c, n, s. auto.
Qed.
Lemma saved_last norm (all : list par) d : In norm (map p_name all) ->
  let q := fold_left (fun s p => if String.eqb (p_name p) norm then p else s) all d in In q all /\ p_name q = norm.
Proof.
  revert d. induction all as [|p all IH] using rev_ind; intros d H; simpl; [destruct H|].
  rewrite fold_left_app. simpl. destruct (String.eqb_spec (p_name p) norm) as [E|E].
  - split; auto. apply in_or_app. simpl. auto.
  - rewrite map_app in H. apply in_app_or in H. simpl in H. destruct H as [H|[H|[]]]; [|congruence]. destruct (IH d H) as [A B]. split; auto. apply in_or_app. auto.
Qed.

(** The full parameter list kept after setting: every parameter in it is one that a component holds, with the
    value just set; every parameter not called like the common normalisation is in it; its last entry is called
    like the common normalisation.  Missing: the other parameters of that name, see the next theorem. *)
Theorem C62_parameter_list_partial : forall k n vals k', ordinary k -> alike k -> getNumFreeParams k = Ok n -> length vals = n ->
  setFreeParamValues vals k = Ok k' ->
  (forall q, In q (k_pars k') -> exists i src, holds k' i src q) /\
  (forall i src q, holds k' i src q -> p_name q <> k_norm k -> In q (k_pars k')) /\
  exists l q, k_pars k' = l ++ [q] /\ p_name q = k_norm k /\ ~ In (k_norm k) (map p_name l).
Proof.
  intros k n vals k' HO HA HC HL HS. destruct (C62_frame_partial k n vals k' HO HA HC HL HS) as [_ HF].
  destruct (set_inv k n vals k' HO HA HC HL HS) as (names & l & HG & -> & LN & B).
  set (k1 := syncParams (with_comps k l)) in *.
  assert (E : k_comps k1 = l) by reflexivity.
  destruct HO as [HN HO]. destruct (k_comps k) as [|[c m] cs] eqn:EC; [congruence|].
  destruct (HO c m ltac:(left; reflexivity)) as (_ & s & A1 & _ & _ & A2). apply in_map_iff in A2. destruct A2 as (p & P1 & P2).
  destruct (HF 0 m p) as (v & HP). { exists c, m, s. rewrite EC. simpl. auto. }
  apply holds_all in HP. rewrite E in HP. set (all := concat (map (fun cn => all_pars (c_srcs (fst cn))) l)) in *.
  destruct (saved_last (k_norm k) all (mk_par "" 0%R true)) as [S1 S2]. { apply in_map_iff. eexists. split; [|exact HP]. exact P1. }
  set (saved := fold_left _ all (mk_par "" 0%R true)) in *.
  assert (EP : k_pars k1 = filter (fun p => negb (String.eqb (p_name p) (k_norm k))) all ++ [saved]) by reflexivity.
  split; [|split].
  - intros q Hq. apply all_holds. rewrite E. rewrite EP in Hq. apply in_app_or in Hq. destruct Hq as [Hq|[<-|[]]]; auto. now apply filter_In in Hq.
  - intros i src q Hq Hn. apply holds_all in Hq. rewrite E in Hq. rewrite EP. apply in_or_app. left. apply filter_In. split; auto.
    destruct (String.eqb_spec (p_name q) (k_norm k)); [exfalso; tauto|reflexivity].
  - eexists _, saved. split; [exact EP|]. split; auto. intros H. apply in_map_iff in H. destruct H as (q & H1 & H2). apply filter_In in H2. destruct H2 as [_ H2].
    rewrite H1, String.eqb_refl in H2. discriminate.
Qed.
Print Assumptions C62_parameter_list_partial.

(** The full parameter list kept after setting lacks every parameter called like the common normalisation,
    except one. *)
Theorem C62_parameter_list_refuted : exists k vals k' q, ordinary k /\ alike k /\ getNumFreeParams k = Ok (length vals) /\
  setFreeParamValues vals k = Ok k' /\ holds k' 0 "DM" q /\ p_name q = k_norm k /\ ~ In q (k_pars k').
Proof.
  exists (mk_composite [(linear [2; 3; 5]%R [("DM", dm 1 2 true); ("gal", mk_spec [mk_par "Prefactor" 4%R true] "Prefactor" "PowerLaw")], "DM")] "Prefactor" "PowerLaw" []), [10; 20; 30]%R.
  eexists. exists (mk_par "Prefactor" 30%R true). split; [|split; [|split; [reflexivity|split; [reflexivity|split; [|split; [reflexivity|]]]]]].
  - split; [discriminate|]. intros c n [H|[]]; injection H as <- <-; simpl; (split; [no_dup|]). eexists; split; [left; reflexivity|]; simpl; repeat split; auto; no_dup.
  - intros x n s x' n' s' [H|[]] H1 [H'|[]] H1'; injection H as <- <-; injection H' as <- <-; simpl in *;
    repeat match goal with H : _ \/ _ |- _ => destruct H as [H|H] | H : False |- _ => destruct H | H : (_, _) = (_, _) |- _ => injection H; clear H; intros; subst end; try discriminate; reflexivity.
  - eexists _, _, _. split; [reflexivity|]. split; [left; reflexivity|]. left. reflexivity.
  - cbn. intros [H|[H|[]]]; injection H; intros; subst; try discriminate; lra.
Qed.
Print Assumptions C62_parameter_list_refuted.

(** Properties C23 and C49: the cached model of the fixed sources, and switching the energy
    dispersion. *)
From Coq Require Import Reals Lra.
From Verif Require Import Base SMap AccumModel AccumProofs BinnedModel BinnedSpec BinnedProofs.
Local Open Scope nat_scope.

(** ** value() *)
(** After every history of ordinary calls in which no source is deleted between a change to it
    and the next evaluation, value() uses the predicted counts and the model that the sources of
    the history have when they are computed from nothing, in the selected energy bins; outside
    them the model is zero. *)
Theorem C23_value_partial :
  forall ph g nfilled nbins first image_of ops,
    sizes_ok ph nfilled nbins -> no_corrections ph (g_ev g) -> offsets_ok first nfilled nbins ->
    Forall (ordinary image_of nbins) ops -> settled [] ops ->
    let srcs := sources_after ops in let w := window_after nbins ops in
    exists st st' model, run ph g nfilled nbins first (init g nfilled nbins) ops = Some st /\
      value ph g nfilled nbins first st = Done st' (total_of ph (g_ev g) srcs (fst w) (snd w), model) /\
      length model = nfilled /\
      forall j, nth j model 0%R =
        if (nth (fst w) first 0 <=? j) && (j <? nth (snd w) first 0) then model_of ph (g_ev g) srcs j else 0%R.
Proof.
  intros ph g nfilled nbins first image_of ops SZ NC OF Ho Hs srcs w.
  destruct (run_ok ph g nfilled nbins first image_of SZ NC OF ops [] _ _ (init_ok ph g nfilled nbins image_of) Ho Hs) as (st & held & touched & E & I & X1 & X2).
  destruct (compute_ok ph g nfilled nbins first image_of SZ NC OF touched st held I) as (st' & held' & npred & E' & F & Y1 & Y2 & Y3 & Y4 & Y5 & Y6 & Y7).
  assert (fst w = b_kmin st) as W1 by (unfold w, window_after; simpl in X2; rewrite <- X2; reflexivity).
  assert (snd w = b_kmax st) as W2 by (unfold w, window_after; simpl in X2; rewrite <- X2; reflexivity).
  assert (srcs = b_src st) as W3 by (unfold srcs, sources_after; simpl in X1; auto).
  exists st, st', (b_model st'). split; auto. rewrite W1, W2, W3. split; [unfold value; rewrite E', Y5; reflexivity|]. split; auto.
Qed.
Print Assumptions C23_value_partial.

(** ** getFreeDerivs() *)
(** Right after value(), a change of the free parameters, syncSrcParams or a change of the
    energy bins, the gradient divides by the model of the current sources, and the derivatives
    are those of the free sources, in the order of the sources. *)
Theorem C23_gradient_partial :
  forall ph g nfilled nbins first image_of ops o,
    sizes_ok ph nfilled nbins -> no_corrections ph (g_ev g) -> offsets_ok first nfilled nbins ->
    Forall (ordinary image_of nbins) (ops ++ [o]) -> settled [] (ops ++ [o]) -> sets_model o = true ->
    let srcs := sources_after (ops ++ [o]) in let w := window_after nbins (ops ++ [o]) in
    exists st st' model, run ph g nfilled nbins first (init g nfilled nbins) (ops ++ [o]) = Some st /\
      gradient_model ph g nfilled nbins first st = Done st' (model, map fst (filter (fun ns => s_free (snd ns)) srcs)) /\
      length model = nfilled /\
      forall j, nth j model 0%R =
        if (nth (fst w) first 0 <=? j) && (j <? nth (snd w) first 0) then model_of ph (g_ev g) srcs j else 0%R.
Proof.
  intros ph g nfilled nbins first image_of ops o SZ NC OF Ho Hs Hm srcs w. apply Forall_app in Ho as [Ho Ho1]. inversion Ho1 as [|? ? Ho2 _]; subst.
  assert (settled [] ops) as Hs0. { clear - Hs. revert Hs. generalize (@nil Z). induction ops as [|x ops IH]; intros t Hs; simpl; auto. destruct x; simpl in *; auto. destruct Hs; auto. }
  destruct (run_ok ph g nfilled nbins first image_of SZ NC OF ops [] _ _ (init_ok ph g nfilled nbins image_of) Ho Hs0) as (st & held & touched & E & I & X1 & X2).
  assert (forall st2, ends_in (step ph g nfilled nbins first st o) st2 -> run ph g nfilled nbins first (init g nfilled nbins) (ops ++ [o]) = Some st2) as Hrun.
  { intros st2 Hr. assert (forall s0, run ph g nfilled nbins first s0 ops = Some st -> run ph g nfilled nbins first s0 (ops ++ [o]) = Some st2) as G; [|apply G; auto].
    clear - Hr. induction ops as [|x ops IH]; intros s0 H; simpl in *.
    - injection H as ->. destruct Hr as [[ob ->]| ->]; auto.
    - destruct (step ph g nfilled nbins first s0 x); auto; discriminate. }
  assert (forall st2, b_src st2 = source_step (b_src st) o -> (b_kmin st2, b_kmax st2) = window_step (b_kmin st, b_kmax st) o -> srcs = b_src st2 /\ w = (b_kmin st2, b_kmax st2)) as Hsw.
  { intros st2 A B. unfold srcs, w, sources_after, window_after. rewrite !fold_left_app. simpl. rewrite A, B, X1, X2. auto. }
  assert (o = OValue \/ o <> OValue) as [->|Hv] by (destruct o; auto; right; discriminate).
  - destruct (compute_ok ph g nfilled nbins first image_of SZ NC OF touched st held I) as (st' & held' & npred & E' & F & Y1 & Y2 & Y3 & Y4 & Y5 & Y6 & Y7).
    destruct (fresh_gradient ph g nfilled nbins first image_of st' held' F Y4) as [st2 G].
    destruct (Hsw st') as [-> ->]; [simpl; auto|simpl; congruence|]. exists st', st2, (b_model st').
    split; [apply Hrun; left; simpl; unfold value; rewrite E'; eexists; reflexivity|]. split; auto. split; auto. simpl. rewrite Y1, Y2, Y3. auto.
  - assert (forall n, o = ODelete n -> ~ In n touched) as Hd by (intros n ->; discriminate).
    destruct (step_ok ph g nfilled nbins first image_of SZ NC OF touched st held o I Ho2 Hd) as (st1 & held1 & E1 & I1 & Z1 & Z2 & Z3).
    destruct (Z3 Hm) as [Hc|]; [|contradiction]. destruct (Hsw st1 Z1 Z2) as [-> ->].
    destruct (stale_gradient ph g nfilled nbins first image_of SZ NC OF _ st1 held1 I1 Hc) as (st2 & st3 & held3 & np & E2 & F2 & G).
    destruct (compute_ok ph g nfilled nbins first image_of SZ NC OF _ st1 held1 I1) as (st' & held' & npred & E' & F & Y1 & Y2 & Y3 & Y4 & Y5 & Y6 & Y7).
    rewrite E2 in E'. injection E' as <- <-. exists st1, st3, (b_model st2). split; [apply Hrun, E1|]. split; auto.
Qed.
Print Assumptions C23_gradient_partial.

Lemma sources_sorted ops : sorted (sources_after ops).
Proof.
  unfold sources_after. assert (forall m, sorted m -> sorted (fold_left source_step ops m)) as H; [|apply H; constructor].
  induction ops as [|o ops IH]; intros m S; simpl; auto. apply IH. destruct o; simpl; auto; try (destruct (mfind n m); auto; apply sorted_insert, S); [apply sorted_erase, S|].
  unfold sorted, mkeys in *. rewrite map_map. exact S.
Qed.
(** Freeing or fixing a source changes neither, when the two ways of totalling agree (C48). *)
Theorem C23_freeing_changes_nothing_partial :
  forall ph g nfilled nbins first image_of ops n b,
    sizes_ok ph nfilled nbins -> no_corrections ph (g_ev g) -> offsets_ok first nfilled nbins ->
    (forall i p, ph_npr ph (g_ev g) i p (i, p) = ph_tot ph (g_ev g) (g_ev g) (i, p)) ->
    Forall (ordinary image_of nbins) ops -> settled [] ops ->
    exists st1 st2 st1' st2' npred model,
      run ph g nfilled nbins first (init g nfilled nbins) ops = Some st1 /\
      run ph g nfilled nbins first (init g nfilled nbins) (ops ++ [OSetFree n b]) = Some st2 /\
      value ph g nfilled nbins first st1 = Done st1' (npred, model) /\ value ph g nfilled nbins first st2 = Done st2' (npred, model).
Proof.
  intros ph g nfilled nbins first image_of ops n b SZ NC OF Hco Ho Hs.
  assert (settled [] (ops ++ [OSetFree n b])) as Hs2.
  { clear - Hs. revert Hs. generalize (@nil Z). induction ops as [|x ops IH]; intros t Hs; simpl; auto. destruct x; simpl in *; auto. destruct Hs; auto. }
  assert (Forall (ordinary image_of nbins) (ops ++ [OSetFree n b])) as Ho2 by (apply Forall_app; split; auto; repeat constructor).
  destruct (C23_value_partial ph g nfilled nbins first image_of ops SZ NC OF Ho Hs) as (st1 & st1' & m1 & R1 & V1 & L1 & N1).
  destruct (C23_value_partial ph g nfilled nbins first image_of _ SZ NC OF Ho2 Hs2) as (st2 & st2' & m2 & R2 & V2 & L2 & N2).
  assert (window_after nbins (ops ++ [OSetFree n b]) = window_after nbins ops) as Ew by (unfold window_after; rewrite fold_left_app; reflexivity).
  assert (exists s t, (sources_after (ops ++ [OSetFree n b]) = sources_after ops) \/
     (mfind n (sources_after ops) = Some s /\ sources_after (ops ++ [OSetFree n b]) = minsert n t (sources_after ops) /\ s_img t = s_img s /\ s_par t = s_par s)) as (s & t & Hst).
  { unfold sources_after. rewrite fold_left_app. simpl. destruct (mfind n _) as [s|] eqn:E.
    - exists s, (mk_bsrc (s_id s) (s_img s) (s_par s) b). right. repeat split; auto.
    - exists (mk_bsrc 0 0 [] b), (mk_bsrc 0 0 [] b). left. auto. }
  assert (forall f : src -> R, (forall x y, s_img x = s_img y -> s_par x = s_par y -> f x = f y) ->
     map (fun ns : Z * src => f (snd ns)) (sources_after (ops ++ [OSetFree n b])) = map (fun ns => f (snd ns)) (sources_after ops)) as Hmap.
  { intros f Hf. destruct Hst as [->|(E & -> & E1 & E2)]; auto. pose proof (sources_sorted ops) as SS. revert E SS. generalize (sources_after ops). clear - Hf E1 E2. induction s0 as [|[x y] m IH]; intros E SS; [discriminate|].
    simpl in *. apply sorted_cons in SS as [S1 S2]. destruct (Z.eqb_spec n x) as [->|D].
    - injection E as ->. rewrite Z.ltb_irrefl. simpl. f_equal. apply Hf; auto.
    - destruct (Z.ltb_spec n x); simpl; [|f_equal; auto].
      exfalso. apply mfind_in in E. rewrite Forall_forall in S2. assert (x < n)%Z by (apply S2; unfold mkeys; apply (in_map fst) in E; auto). lia. }
  rewrite Ew in V2, N2.
  assert (m2 = m1) as ->.
  { apply (nth_ext _ _ 0%R 0%R); [congruence|]. intros j _. rewrite N1, N2. destruct (_ && _); auto. unfold model_of. rewrite (Hmap (fun s => own_counts ph (g_ev g) s j)); auto.
    intros x y A B. unfold own_counts. rewrite A, B. reflexivity. }
  assert (forall a c, total_of ph (g_ev g) (sources_after (ops ++ [OSetFree n b])) a c = total_of ph (g_ev g) (sources_after ops) a c) as Ht.
  { intros a c. unfold total_of. f_equal. apply map_ext. intros k. rewrite (Hmap (fun s => own_total ph (g_ev g) s k)); auto.
    intros x y A B. unfold own_total. rewrite A, B, Hco. destruct (s_free x), (s_free y); reflexivity. }
  rewrite Ht in V2. exists st1, st2, st1', st2', (total_of ph (g_ev g) (sources_after ops) (fst (window_after nbins ops)) (snd (window_after nbins ops))), m1. auto.
Qed.
Print Assumptions C23_freeing_changes_nothing_partial.

(** ** A case *)
(** One pixel and one energy bin; the counts of a source are its image times its parameter. *)
Definition ph1 : physics :=
  let f (i : Z) (p : list Z) := [(IZR i * IZR (hd 0%Z p))%R] in
  mk_phys (fun _ i p _ => f i p) (fun _ i p _ => f i p) (fun _ _ q => f (fst q) (snd q)).
Definition g1 : config := mk_cfg 0 true false true.
Definition run1 := run ph1 g1 1 1 [0; 1] (init g1 1 1).
Definition value1 := value ph1 g1 1 1 [0; 1].
Definition gradient1 := gradient_model ph1 g1 1 1 [0; 1].
(** Add a fixed and a free source, evaluate, change both, free the fixed one, evaluate, fix it again, delete it. *)
Definition hist1 : list op :=
  [OAdd 1 (mk_bsrc 1 10 [2%Z] false); OAdd 2 (mk_bsrc 2 3 [5%Z] true); OValue; OSetParam 1 [4%Z]; OSetFreeValues (fun _ p => map Z.succ p); OSetFree 1 true; OValue;
   OSetFree 1 false; OValue; ODelete 1].
Example C23_case :
  sizes_ok ph1 1 1 /\ no_corrections ph1 (g_ev g1) /\ offsets_ok [0; 1] 1 1 /\
  (forall i p, ph_npr ph1 (g_ev g1) i p (i, p) = ph_tot ph1 (g_ev g1) (g_ev g1) (i, p)) /\
  Forall (ordinary (fun n => if (n =? 1)%Z then 10%Z else 3%Z) 1) hist1 /\ settled [] hist1 /\ map fst (sources_after hist1) = [2%Z] /\
  Forall (ordinary (fun n => if (n =? 1)%Z then 10%Z else 3%Z) 1) (hist1 ++ [OSync]) /\ settled [] (hist1 ++ [OSync]).
Proof.
  assert (forall (l : list op), l = hist1 \/ l = hist1 ++ [OSync] -> Forall (ordinary (fun n => if (n =? 1)%Z then 10%Z else 3%Z) 1) l /\ settled [] l) as H.
  { intros l [->| ->]; (split; [repeat constructor; simpl; try discriminate; intros n [|a p] Hp; simpl; congruence|simpl; tauto]). }
  split; [repeat split; reflexivity|]. split; [repeat split; reflexivity|].
  split; [split; [reflexivity|split; [reflexivity|intros [|[|a]] [|[|b]]; simpl; lia]]|]. split; [reflexivity|].
  split; [apply H; auto|]. split; [apply H; auto|]. split; [reflexivity|]. split; apply H; auto.
Qed.

(** ** Where it fails *)
(** Evaluate the left-hand side, keeping the operations on reals. *)
Ltac ev := match goal with |- ?L = _ =>
  let v := eval cbv -[IZR Rplus Rmult Rminus Ropp] in L in transitivity v; [vm_cast_no_check (eq_refl v)|reflexivity] end.
(** Deleting a fixed source after changing its parameter, before the next evaluation, subtracts
    what it would contribute now and not what it contributed: the likelihood without any
    source predicts -3*10 counts, however often it is evaluated. *)
Theorem C23_delete_after_change_refuted :
  exists ops st, run1 ops = Some st /\ sources_after ops = [] /\
    exists st1 st2 m1 m2 np, value1 st = Done st1 (np, m1) /\ value1 st1 = Done st2 (np, m2) /\ (np = -30)%R /\ (nth 0 m2 0 = -30)%R.
Proof.
  exists [OAdd 1 (mk_bsrc 1 10 [2%Z] false); OSetParam 1 [5%Z]; ODelete 1]. eexists. split; [ev|]. split; [reflexivity|].
  do 5 eexists. split; [ev|]. split; [ev|]. split; simpl; lra.
Qed.
Print Assumptions C23_delete_after_change_refuted.
(** The same for a source that was freed and changed by a fit which did not end in a value. *)
Theorem C23_delete_after_freeing_refuted :
  exists ops st, run1 ops = Some st /\ sources_after ops = [] /\
    exists st1 m1 np, value1 st = Done st1 (np, m1) /\ (np = -30)%R.
Proof.
  exists [OAdd 1 (mk_bsrc 1 10 [2%Z] false); OValue; OSetFree 1 true; OSetFreeValues (fun _ _ => [5%Z]); ODelete 1]. eexists. split; [ev|]. split; [reflexivity|].
  do 3 eexists. split; [ev|]. lra.
Qed.
Print Assumptions C23_delete_after_freeing_refuted.
(** A source added under the name of a deleted one uses the map of the deleted one. *)
Theorem C23_name_reused_refuted :
  exists ops st, run1 ops = Some st /\ sources_after ops = [(1%Z, mk_bsrc 2 20 [1%Z] true)] /\
    exists st1 m1 np, value1 st = Done st1 (np, m1) /\ (np = 10)%R /\ (nth 0 m1 0 = 10)%R /\
      (total_of ph1 0 (sources_after ops) 0 1 = 20)%R /\ (model_of ph1 0 (sources_after ops) 0 = 20)%R.
Proof.
  exists [OAdd 1 (mk_bsrc 1 10 [1%Z] true); ODelete 1; OAdd 1 (mk_bsrc 2 20 [1%Z] true)]. eexists. split; [ev|]. split; [reflexivity|].
  do 3 eexists. split; [ev|]. unfold total_of, model_of, own_total, own_counts, Rsum. simpl. repeat split; lra.
Qed.
Print Assumptions C23_name_reused_refuted.
(** A map put in by hand counts for a free source and not for a fixed one, until the fixed
    model is rebuilt for another reason; and then the map is the old one again. *)
Theorem C23_set_image_refuted :
  exists b st stf m np mf npf,
    run1 [OAdd 1 (mk_bsrc 1 10 [1%Z] true); OSetImage 1 7; OValue] = Some st /\ value1 st = Done b (np, m) /\ (np = 7)%R /\ (nth 0 m 0 = 7)%R /\
    run1 [OAdd 1 (mk_bsrc 1 10 [1%Z] false); OSetImage 1 7; OValue] = Some stf /\
    exists bf, value1 stf = Done bf (npf, mf) /\ (npf = 10)%R /\ (nth 0 mf 0 = 10)%R /\
    exists stl bl2 np2 m2, run1 [OAdd 1 (mk_bsrc 1 10 [1%Z] false); OSetImage 1 7; OSetParam 1 [2%Z]; OValue] = Some stl /\ value1 stl = Done bl2 (np2, m2) /\ (np2 = 20)%R /\ (nth 0 m2 0 = 20)%R.
Proof.
  do 7 eexists. split; [ev|]. split; [ev|]. split; [simpl; lra|]. split; [simpl; lra|]. split; [ev|].
  eexists. split; [ev|]. split; [simpl; lra|]. split; [simpl; lra|].
  do 4 eexists. split; [ev|]. split; [ev|]. split; simpl; lra.
Qed.
Print Assumptions C23_set_image_refuted.
(** After setParam alone, and after deleting or freeing a source, the gradient still uses the
    model of the last evaluation, and it does not have the derivatives of a freed source. *)
Theorem C23_gradient_refuted :
  (exists st st1 names, run1 [OAdd 1 (mk_bsrc 1 10 [1%Z] true); OValue; OSetParam 1 [2%Z]] = Some st /\ gradient1 st = Done st1 ([(0 + 1 * (10 * 1))%R], names)) /\
  (exists st st1 names, run1 [OAdd 1 (mk_bsrc 1 10 [1%Z] true); OValue; ODelete 1] = Some st /\ gradient1 st = Done st1 ([(0 + 1 * (10 * 1))%R], names)) /\
  (exists st st1 model, run1 [OAdd 1 (mk_bsrc 1 10 [1%Z] false); OValue; OSetFree 1 true] = Some st /\ gradient1 st = Done st1 (model, [])).
Proof. repeat split; do 3 eexists; (split; [ev|ev]). Qed.
Print Assumptions C23_gradient_refuted.

(** With correction factors for the dispersion the counts of a source also depend on what its
    dispersion cache was filled for: here on the second parameter. *)
Definition ph2 : physics :=
  let f (i : Z) (p : list Z) (q : Z * list Z) := [(IZR i * IZR (nth 0 p 0%Z) * IZR (nth 1 (snd q) 0%Z))%R] in
  mk_phys (fun _ i p q => f i p q) (fun _ i p q => f i p q) (fun _ _ q => f (fst q) (snd q) q).
(** A change of the parameter of a fixed source is not fully seen, however often value() is called. *)
Theorem C23_corrections_refuted :
  exists ops st st1 m np, run ph2 g1 1 1 [0; 1] (init g1 1 1) ops = Some st /\
    Forall (ordinary (fun _ => 10%Z) 1) ops /\ settled [] ops /\
    value ph2 g1 1 1 [0; 1] st = Done st1 (np, m) /\ (np = 20)%R /\ (nth 0 m 0 = 20)%R /\
    (total_of ph2 0 (sources_after ops) 0 1 = 30)%R /\ (model_of ph2 0 (sources_after ops) 0 = 30)%R.
Proof.
  exists [OAdd 1 (mk_bsrc 1 10 [1%Z; 2%Z] false); OValue; OSetParam 1 [1%Z; 3%Z]; OValue; OValue].
  do 4 eexists. split; [ev|]. split; [repeat constructor; simpl; congruence|]. split; [simpl; tauto|]. split; [ev|].
  unfold total_of, model_of, own_total, own_counts, Rsum. simpl. repeat split; lra.
Qed.
Print Assumptions C23_corrections_refuted.

(** ** C49: switching the energy dispersion *)
(** With no fixed source in the model, the first evaluation after the switch reads an empty
    vector; whatever the sources are. *)
Theorem C49_switch_without_fixed_refuted :
  forall ph g nfilled nbins first st v, b_fix st = [] -> (forall n s, In (n, s) (b_src st) -> s_free s = true) -> v <> g_ev g -> b_kmin st < b_kmax st ->
    exists st', step ph g nfilled nbins first st (OSetEdisp v) = Done st' ObsNone /\ value ph g nfilled nbins first st' = Undef.
Proof.
  intros ph g nfilled nbins first st v Hf Hs Hv Hk. simpl. destruct (Z.eqb_spec v (g_ev g)) as [|Hv']; [contradiction|]. eexists. split; [reflexivity|].
  unfold value, computeModelMap_internal, fixedModelUpdated. simpl b_fs. simpl b_fix. simpl b_src. rewrite Hf. cbn [length Nat.eqb negb andb].
  assert (forall l (st0 : bl) ch fx, (forall n s, In (n, s) l -> s_free s = true) -> check_listed g st0 l ch fx = (st0, ch, fx)) as H1.
  { induction l as [|[n s] l IH]; intros st0 ch fx H; cbn [check_listed]; auto. rewrite (H n s) by (left; auto). apply IH. intros n' s' J. apply (H n' s'). right. auto. }
  assert (forall l (st0 : bl) ch, (forall n s, In (n, s) l -> s_free s = true) -> check_spectra g st0 l ch = (st0, ch)) as H2.
  { induction l as [|[n s] l IH]; intros st0 ch H; cbn [check_spectra]; auto. rewrite (H n s) by (left; auto). apply IH. intros n' s' J. apply (H n' s'). right. auto. }
  rewrite H1 by auto. cbn [rbind length Nat.eqb b_fix]. cbn [rbind b_fix length Nat.eqb b_src]. rewrite H2 by auto. cbn [rbind andb b_cnt].
  unfold copy_over. simpl length. cbn [Nat.leb]. cbn [app skipn b_fs b_kmin b_kmax].
  replace (b_kmax st - b_kmin st) with (S (b_kmax st - b_kmin st - 1)) by lia. cbn [seq mfold]. unfold vec_get. destruct (b_kmin st); reflexivity.
Qed.
Print Assumptions C49_switch_without_fixed_refuted.
Example C49_switch_without_fixed_case : exists st, run1 [OAdd 1 (mk_bsrc 1 10 [1%Z] true); OValue] = Some st /\ b_fix st = [] /\
  (forall n s, In (n, s) (b_src st) -> s_free s = true) /\ (1 <> g_ev g1)%Z /\ b_kmin st < b_kmax st.
Proof. eexists. split; [ev|]. split; [reflexivity|]. split; [intros n s [E|[]]; inversion E; reflexivity|]. split; [discriminate|simpl; lia]. Qed.

(** The counts of this source depend on the dispersion setting of its map, its total on the
    setting of the cache of maps. *)
Definition ph3 : physics :=
  let f (ev : Z) (i : Z) (p : list Z) := [(IZR i * IZR (hd 0%Z p) + IZR ev)%R] in
  mk_phys (fun ev i p _ => f ev i p) (fun ev i p _ => f ev i p) (fun fl ev q => f fl (fst q) (snd q)).
(** The switch reaches the totals of the free sources and not their counts, and not the fixed
    sources; switching back does not restore the first state. *)
Theorem C49_switch_refuted :
  exists st st1 m np st2 st3 m2 np2,
    let ops := [OAdd 1 (mk_bsrc 1 10 [1%Z] true); OAdd 2 (mk_bsrc 2 100 [1%Z] false); OValue; OSetEdisp 1] in
    run ph3 g1 1 1 [0; 1] (init g1 1 1) ops = Some st /\
    value ph3 g1 1 1 [0; 1] st = Done st1 (np, m) /\ (nth 0 m 0 = 110)%R /\ (np = 111)%R /\ (total_of ph3 1 (sources_after ops) 0 1 = 112)%R /\
    run ph3 g1 1 1 [0; 1] (init g1 1 1) (ops ++ [OSetEdisp 0]) = Some st2 /\
    value ph3 g1 1 1 [0; 1] st2 = Done st3 (np2, m2) /\ (np2 = 111)%R /\ (total_of ph3 0 (sources_after ops) 0 1 = 110)%R.
Proof.
  do 8 eexists. cbv zeta. split; [ev|]. split; [ev|]. split; [simpl; lra|]. split; [simpl; lra|].
  split; [unfold total_of, own_total, Rsum; simpl; lra|]. split; [ev|]. split; [ev|]. split; [simpl; lra|].
  unfold total_of, own_total, Rsum; simpl; lra.
Qed.
Print Assumptions C49_switch_refuted.
(** Setting the value the likelihood was built with changes nothing. *)
Theorem C49_same_setting_partial : forall ph g nfilled nbins first st, step ph g nfilled nbins first st (OSetEdisp (g_ev g)) = Done st ObsNone.
Proof. intros. simpl. now rewrite Z.eqb_refl. Qed.
Print Assumptions C49_same_setting_partial.

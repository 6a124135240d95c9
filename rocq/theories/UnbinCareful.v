(** A client who synchronises what they change always gets the likelihood of the present sources: for C25, C26, C50, C51. *)
From Coq Require Import Reals Lra Permutation Sorted.
From Verif Require Import Base SMap AccumModel AccumProofs BinnedProofs UnbinModel UnbinSpec UnbinProofs UnbinRuns UnbinHist.
Local Open Scope nat_scope.

Section Careful.
Context (ph : uphys) (g : ucfg) (npar : Z -> nat).
Hypothesis Hc : uc_catch g = false.
Notation nev := (uc_nev g).
Notation Core := (Core ph g npar).

Record CI (m : SMap.smap usrc) (S : sst) (st : ust) : Prop := {
  c_core : Core S st; c_pvok : Pv S st;
  c_now : now (p_src S) = m;
  c_at : forall n x, mfind n (p_src S) = Some x -> ss_at x = (us_par (ss_now x), None) /\ us_grid (ss_now x) = None;
  c_eb : p_eb S = None; c_free : u_free st = free_names (u_src st); c_pv : u_pv st = flat_params (u_src st);
  c_fx : forall n s j, mfind n (u_src st) = Some s -> us_isfree s = false -> j < nev -> mfind n (ev_flux (nth j (u_ev st) ev_zero)) = Some (density ph n s j) }.

(** ** The gradient *)
Lemma count_free : forall par fr, length par = length fr -> length (filter snd (combine par fr : list (R * bool))) = length (filter (fun i => nth i fr false) (seq 0 (length par))).
Proof.
  induction par as [|p par IH]; intros [|b fr] H; try discriminate; auto. inversion H as [H1].
  assert (E0 : forall b' : bool, length (filter snd ((p, b') :: combine par fr)) = (if b' then 1 else 0) + length (filter snd (combine par fr))) by (intros []; reflexivity).
  simpl combine. rewrite E0, IH by auto. clear IH E0. change (seq 0 (length (p :: par))) with (0 :: seq 1 (length par)). rewrite <- seq_shift.
  assert (E : length (filter (fun i => nth i (b :: fr) false) (map S (seq 0 (length par)))) = length (filter (fun i => nth i fr false) (seq 0 (length par)))).
  { generalize (seq 0 (length par)). induction l as [|x l IHl]; simpl; auto. destruct (nth x fr false); simpl; auto. }
  cbn [filter]. rewrite <- E. destruct b; reflexivity.
Qed.
Lemma num_free_list (m : SMap.smap usrc) : (forall n s, In (n, s) m -> length (us_par s) = length (us_fr s)) -> length (filter snd (flat_params m)) = length (free_list m).
Proof.
  unfold flat_params, free_list. induction m as [|[n s] m IH]; intros H; simpl; auto. rewrite filter_app, !app_length, IH. 2: intros; apply (H n0); now right.
  f_equal. rewrite map_length. unfold free_positions. apply count_free. apply (H n s). now left.
Qed.
Definition dn (nsi : Z * usrc * nat) : R := let '(n, s, i) := nsi in up_dnpred ph (us_fn s) (us_img s) (us_grid s) (us_par s) i.
Lemma npred_derivs_list m : flat_map (fun ns => npred_derivs ph (snd ns)) m = map dn (free_list m).
Proof.
  unfold free_list. induction m as [|[n s] m IH]; simpl; auto. rewrite map_app. f_equal; auto. unfold npred_derivs. rewrite map_map. reflexivity.
Qed.
Lemma not_free_positions s : us_isfree s = false -> free_positions s = [].
Proof.
  unfold us_isfree, free_positions. intros H. assert (A : forall i, nth i (us_fr s) false = false).
  { revert H. generalize (us_fr s). induction l as [|b l IH]; intros H [|i]; simpl in *; auto. destruct b; auto; discriminate. apply IH. destruct b; auto; discriminate. }
  induction (seq 0 (length (us_par s))) as [|i l IH]; simpl; auto. now rewrite A.
Qed.
Lemma all_npred_derivs_list st : sorted (u_src st) -> u_free st = free_names (u_src st) -> all_npred_derivs ph g st = map dn (free_list (u_src st)).
Proof.
  intros Ss Ef. unfold all_npred_derivs. destruct (uc_new g); [|apply npred_derivs_list]. rewrite Ef. clear Ef. rewrite <- npred_derivs_list.
  assert (H : forall l, (forall n s, In (n, s) l -> mfind n (u_src st) = Some s) -> flat_map (fun n => match mfind n (u_src st) with Some s => npred_derivs ph s | None => [] end) (map fst (filter (fun ns => us_isfree (snd ns)) l)) = flat_map (fun ns => npred_derivs ph (snd ns)) l).
  { induction l as [|[n s] l IH]; intros H; simpl; auto. destruct (us_isfree s) eqn:E; simpl.
    - rewrite (H n s) by now left. f_equal. apply IH. intros; apply H; now right.
    - unfold npred_derivs at 2. rewrite not_free_positions by auto. simpl. apply IH. intros; apply H; now right. }
  apply H. intros. now apply mfind_In.
Qed.
Lemma gradient_synced m S st : CI m S st -> exists st' d, getFreeDerivs ph g st = (st', Ok d) /\ CI m S st' /\ length d = length (free_list m) /\
  forall k nsi, nth_error (free_list m) k = Some nsi -> nth k d 0%R = (Rsum (map (fun j => dlog ph m j nsi) (seq 0 nev)) - dn nsi)%R.
Proof.
  intros C. pose proof (c_core _ _ _ C) as K. destruct (gradient_ok ph g npar S st Hc K (c_pvok _ _ _ C)) as (st' & o & A & B & D & E1 & E2 & E3 & H).
  assert (Em : u_src st = m) by (rewrite (k_src _ _ _ _ _ K); apply C).
  assert (Es : u_src st' = u_src st) by (rewrite (k_src _ _ _ _ _ B), (k_src _ _ _ _ _ K); auto).
  assert (Ss : sorted (u_src st)) by (rewrite (k_src _ _ _ _ _ K); apply sorted_now, K).
  assert (An := all_npred_derivs_list st Ss (c_free _ _ _ C)).
  destruct H as (d & Ho & Hl & Hd).
  - unfold num_free. rewrite (c_pv _ _ _ C). apply num_free_list. intros n s I. apply mfind_In in I; auto. rewrite (k_src _ _ _ _ _ K), mfind_now in I.
    destruct (mfind n (p_src S)) as [x|] eqn:F; [|discriminate]. inversion I; subst s. destruct (k_len _ _ _ _ _ K n x F). lia.
  - rewrite An. now rewrite map_length.
  - exists st', d. subst o. split; [exact A|]. split.
    + constructor; auto; try apply C. rewrite E1, Es. apply C. rewrite E2, Es. apply C.
      intros n s j F Fr Hj. rewrite Es in F. destruct E3 as (_ & Kp & _). rewrite Kp by (auto; rewrite (c_free _ _ _ C); apply existsb_nIn; rewrite free_names_find by auto; now rewrite F). now apply C.
    + rewrite <- Em. split; [exact Hl|]. intros k nsi Hk. rewrite (Hd k nsi Hk). rewrite An. rewrite (nth_error_nth _ k 0%R (map_nth_error dn k _ Hk)).
      assert (Ef : filter (in_bounds ph (u_eb st)) (seq 0 nev) = seq 0 nev).
      { rewrite (k_eb _ _ _ _ _ K), (c_eb _ _ _ C). generalize (seq 0 nev). induction l; simpl; congruence. }
      now rewrite Ef.
Qed.

(** ** The value *)
Lemma spec_fresh m S st : CI m S st -> spec_value ph g S = fresh_value ph g m None.
Proof.
  intros C. unfold spec_value, fresh_value. rewrite (c_eb _ _ _ C). simpl excluded. cbv iota. rewrite <- (c_now _ _ _ C). f_equal. f_equal.
  pose proof (k_sorted _ _ _ _ _ (c_core _ _ _ C)) as Ss. unfold now. rewrite map_map. apply map_ext_in. intros [n x] I. simpl.
  apply mfind_In in I; auto. destruct (c_at _ _ _ C n x I) as [A B]. rewrite A, B. destruct (uc_new g); reflexivity.
Qed.
Lemma CI_best m S st v p : CI m S st -> CI m (with_best S v p) (w_best st v p).
Proof. intros [K P A B C D E F]. constructor; auto. destruct K. constructor; auto. Qed.
Lemma flux_map_eq (m : SMap.smap usrc) (f : SMap.smap R) j : sorted m -> sorted f -> mkeys f = mkeys m -> (forall n s, mfind n m = Some s -> mfind n f = Some (density ph n s j)) ->
  f = map (fun ns => (fst ns, density ph (fst ns) (snd ns) j)) m.
Proof.
  intros Sm Sf Ek H. apply sorted_ext; auto. now apply (sorted_onto (fun n s => density ph n s j)). intros k. rewrite (mfind_onto (fun n s => density ph n s j)).
  destruct (mfind k m) as [s|] eqn:F; simpl. now apply H. apply mfind_none. rewrite Ek. now apply mfind_none.
Qed.
Lemma value_synced m S st : CI m S st -> exists st', value ph g st = (st', Ok (fresh_value ph g m None)) /\ CI m (spec_step ph g S UValue) st' /\
  forall j, j < nev -> ev_flux (nth j (u_ev st') ev_zero) = map (fun ns => (fst ns, density ph (fst ns) (snd ns) j)) m /\ ev_sum (nth j (u_ev st') ev_zero) = total_density ph m j.
Proof.
  intros C. pose proof (c_core _ _ _ C) as K. destruct (value_ok ph g npar S st Hc K (c_pvok _ _ _ C)) as (st' & A & B & D & E1 & E2 & js & E3 & E4).
  exists st'. rewrite A, (spec_fresh _ _ _ C). split; auto.
  rewrite (c_eb _ _ _ C) in E4. specialize (E4 eq_refl). assert (Ef : forall l, filter (in_bounds ph None) l = l) by (induction l; simpl; congruence). rewrite Ef in E4. subst js.
  assert (Em : u_src st = m) by (rewrite (k_src _ _ _ _ _ K); apply C).
  assert (En : now (p_src (spec_step ph g S UValue)) = m /\ p_eb (spec_step ph g S UValue) = None /\ p_src (spec_step ph g S UValue) = p_src S).
  { unfold spec_step. destruct (_ && _); simpl; split; try apply C; split; auto; apply C. }
  destruct En as (En1 & En2 & En3).
  assert (Es : u_src st' = m) by (rewrite (k_src _ _ _ _ _ B); auto).
  assert (Sm : sorted m) by (rewrite <- Em, (k_src _ _ _ _ _ K); apply sorted_now, K).
  assert (Fl : forall n s j, mfind n m = Some s -> j < nev -> mfind n (ev_flux (nth j (u_ev st') ev_zero)) = Some (density ph n s j)).
  { intros n s j F Hj. destruct E3 as (_ & Kp & Fr). rewrite Em, (c_free _ _ _ C), Em in *. destruct (us_isfree s) eqn:Efr.
    - apply Fr. apply in_seq; lia. now apply mfind_in. apply existsb_In. rewrite free_names_find by auto. now rewrite F.
    - rewrite Kp by (auto; apply existsb_nIn; rewrite free_names_find by auto; now rewrite F). apply C; auto. now rewrite Em. }
  split.
  - constructor; auto. rewrite En3. apply C. rewrite E1, Es, <- Em. apply C. rewrite E2, Es, <- Em. apply C. intros n s j F _ Hj. rewrite Es in F. now apply Fl.
  - intros j Hj. destruct E3 as ([_ Ev] & _). destruct (Ev j Hj) as [[G1 G2] G3]. rewrite Em in G3.
    assert (Efl : ev_flux (nth j (u_ev st') ev_zero) = map (fun ns => (fst ns, density ph (fst ns) (snd ns) j)) m).
    { apply flux_map_eq; auto. }
    split; auto. rewrite G2, Efl. unfold total_density. rewrite map_map. reflexivity.
Qed.

(** ** Every action *)
Lemma set_free_values_fixed f s : us_isfree s = false -> set_free_values f s = s.
Proof.
  intros H. unfold set_free_values, set_par. assert (A : forall i, nth i (us_fr s) false = false).
  { unfold us_isfree in H. revert H. generalize (us_fr s). induction l as [|b l IH]; intros H [|i]; simpl in *; auto. destruct b; auto; discriminate. apply IH. destruct b; auto; discriminate. }
  assert (E : map (fun i => if nth i (us_fr s) false then f i (nth i (us_par s) 0%R) else nth i (us_par s) 0%R) (seq 0 (length (us_par s))) = us_par s).
  { apply nth_ext with (d := 0%R) (d' := 0%R). now rewrite map_length, seq_length. intros i Hi. rewrite map_length, seq_length in Hi.
    erewrite nth_indep. 2: now rewrite map_length, seq_length. rewrite (map_nth (fun i => if nth i (us_fr s) false then f i (nth i (us_par s) 0%R) else nth i (us_par s) 0%R) _ 0). rewrite seq_nth by auto. simpl. now rewrite A. }
  rewrite E. now destruct s.
Qed.
Lemma isfree_set_free f s : us_isfree (set_free_values f s) = us_isfree s. Proof. reflexivity. Qed.
Lemma now_onto f S : now (onto (fun n => with_now (f n)) S) = map (fun ns => (fst ns, f (fst ns) (snd ns))) (now S).
Proof. unfold now, onto. rewrite !map_map. reflexivity. Qed.
Lemma CI_sync m S st : Core S st -> Pv S st -> now (p_src S) = m -> p_eb S = None ->
  (forall n x, mfind n (p_src S) = Some x -> us_grid (ss_now x) = None /\ (us_isfree (ss_now x) = false -> ss_at x = (us_par (ss_now x), None))) ->
  (forall n s j, mfind n (u_src st) = Some s -> us_isfree s = false -> j < nev -> mfind n (ev_flux (nth j (u_ev st) ev_zero)) = Some (density ph n s j)) ->
  CI m (sync S) (syncParams ph g st).
Proof.
  intros K P En Eb Ha Hf. destruct (sync_ok ph g npar S st K) as [K2 P2].
  destruct (syncParams_fields ph g st) as (F1 & F2 & F3 & F4 & F5 & F6 & F7 & F8 & F9).
  constructor; auto.
  - now rewrite now_sync.
  - intros n x F. rewrite find_sync in F. destruct (mfind n (p_src S)) as [y|] eqn:Fy; [|discriminate]. simpl in F. destruct (Ha n y Fy) as [Hg Hx]. inversion F as [Ex]. clear F.
    destruct (us_isfree (ss_now y)) eqn:Efr; subst x. simpl. rewrite Hg. auto. split; auto.
  - now rewrite F2, F1.
  - now rewrite F3, F1.
  - intros n s j. rewrite F1, F5. apply Hf.
Qed.
Lemma action_step m S st a : action_ok npar a -> CI m S st -> exists st', urun ph g st (calls a) = Some st' /\ CI (act m a) (fold_left (spec_step ph g) (calls a) S) st'.
Proof.
  intros O C. pose proof (c_core _ _ _ C) as K. pose proof (c_pvok _ _ _ C) as P.
  assert (Em : u_src st = m) by (rewrite (k_src _ _ _ _ _ K); apply C).
  assert (Sm : sorted m) by (rewrite <- Em, (k_src _ _ _ _ _ K); apply sorted_now, K).
  assert (Fm : forall n, mfind n m = option_map ss_now (mfind n (p_src S))) by (intros; rewrite <- (c_now _ _ _ C); apply mfind_now).
  destruct a as [n s|n|n p fr|f| | |]; cbn [calls act fold_left urun ustep].
  - destruct O as (L1 & L2 & Lg). rewrite Fm. destruct (mfind n (p_src S)) as [x|] eqn:F; simpl option_map; cbv iota.
    + exists st. unfold addSource. rewrite Em, Fm, F. simpl. split; auto. unfold spec_step. rewrite F. exact C.
    + destruct (add_ok ph g npar S st n s K P F L1 L2) as (st' & A & B & D & E1 & E2 & E3). rewrite A. exists st'. split; auto.
      assert (SS : spec_step ph g S (UAdd n s) = with_best (sync (with_psrc S (minsert n (mk_ss s (us_par s, us_grid s)) (p_src S)))) worst (p_bestpar S)) by (unfold spec_step; now rewrite F).
      assert (En : now (p_src (spec_step ph g S (UAdd n s))) = minsert n s m).
      { rewrite SS. transitivity (now (p_src (sync (with_psrc S (minsert n (mk_ss s (us_par s, us_grid s)) (p_src S)))))); [reflexivity|]. rewrite now_sync. simpl. rewrite now_insert. now rewrite (c_now _ _ _ C). }
      assert (Es : u_src st' = minsert n s m) by (rewrite (k_src _ _ _ _ _ B); auto).
      constructor; auto.
      * intros k x. rewrite SS. intros Fx. change (mfind k (p_src (sync (with_psrc S (minsert n (mk_ss s (us_par s, us_grid s)) (p_src S))))) = Some x) in Fx. rewrite find_sync in Fx. simpl p_src in Fx.
        destruct (Z.eq_dec k n) as [->|Hk].
        -- rewrite mfind_insert_eq in Fx. simpl in Fx. inversion Fx. destruct (us_isfree s); simpl; now rewrite Lg.
        -- rewrite mfind_insert_neq in Fx by auto. destruct (mfind k (p_src S)) as [y|] eqn:Fy; [|discriminate]. simpl in Fx. destruct (c_at _ _ _ C k y Fy) as [Y1 Y2]. inversion Fx. destruct (us_isfree (ss_now y)); simpl; rewrite ?Y2; auto.
      * rewrite SS. apply C.
      * intros k t j. rewrite Es. intros Ft Fr Hj. rewrite E3 by auto. simpl. destruct (Z.eq_dec k n) as [->|Hk].
        -- rewrite mfind_insert_eq in Ft. rewrite mfind_insert_eq. injection Ft as <-; reflexivity.
        -- rewrite mfind_insert_neq in Ft by auto. rewrite mfind_insert_neq by auto. apply C; auto. now rewrite Em.
  - destruct (delete_ok ph g npar S st n K P) as (st' & o & A & B & D & E & E1 & E2 & E3). rewrite A. exists st'. split. { destruct o; auto. contradiction. }
    assert (En : now (p_src (spec_step ph g S (UDelete n))) = merase n m).
    { unfold spec_step. cbv zeta. simpl p_src. destruct (mfind n (p_src S)) as [x|] eqn:F.
      - rewrite now_sync. simpl. rewrite now_erase. now rewrite (c_now _ _ _ C).
      - simpl. rewrite (c_now _ _ _ C). symmetry. apply merase_absent. now rewrite Fm, F. }
    assert (Es : u_src st' = merase n m) by (rewrite (k_src _ _ _ _ _ D); auto).
    constructor; auto.
    + intros k x Fx. unfold spec_step in Fx. cbv zeta in Fx. simpl p_src in Fx. destruct (mfind n (p_src S)) as [y|] eqn:F.
      * rewrite find_sync in Fx. simpl p_src in Fx. destruct (Z.eq_dec k n) as [->|Hk]. rewrite mfind_erase_eq in Fx by apply K. discriminate. rewrite mfind_erase_neq in Fx by auto.
        destruct (mfind k (p_src S)) as [z|] eqn:Fy; [|discriminate]. simpl in Fx. destruct (c_at _ _ _ C k z Fy) as [Y1 Y2]. inversion Fx. destruct (us_isfree (ss_now z)); simpl; rewrite ?Y2; auto.
      * exact (c_at _ _ _ C k x Fx).
    + unfold spec_step. cbv zeta. simpl p_src. destruct (mfind n (p_src S)); apply C.
    + destruct (mfind n (p_src S)) as [x|] eqn:F. now apply E1. destruct E2 as [X1 X2]; auto. rewrite X1, Es, (c_free _ _ _ C), Em. rewrite merase_absent; auto. now rewrite Fm, F.
    + destruct (mfind n (p_src S)) as [x|] eqn:F. now apply E1. destruct E2 as [X1 X2]; auto. rewrite X2, Es, (c_pv _ _ _ C), Em. rewrite merase_absent; auto. now rewrite Fm, F.
    + intros k t j. rewrite Es. intros Ft Fr Hj. rewrite E3 by auto. destruct (k_ev _ _ _ _ _ K) as [_ V]. destruct (V j Hj) as [G _]. rewrite delete_flux by apply G.
      destruct (Z.eq_dec k n) as [->|Hk]. rewrite mfind_erase_eq in Ft by auto. discriminate. rewrite mfind_erase_neq in Ft by auto. rewrite mfind_erase_neq by auto. apply C; auto. now rewrite Em.
  - destruct O as [L1 L2]. pose proof (poke_ok ph g npar S st n (fun s => set_par s p fr) K P) as H. rewrite Fm.
    destruct (mfind n (p_src S)) as [x|] eqn:F; simpl option_map; cbv iota.
    + destruct H as (st1 & A & B & D & E1 & E2 & E3). { intros y [= <-]. apply sim_par with (npar := npar); auto. apply (k_len _ _ _ _ _ K n x F). }
      rewrite A. cbn [ubind]. set (S1 := with_psrc S (minsert n (with_now (fun s => set_par s p fr) x) (p_src S))) in *.
      assert (SS1 : spec_step ph g S (USetParam n p fr) = sync S1) by (unfold spec_step; now rewrite F).
      rewrite SS1. destruct (sync_ok ph g npar S1 st1 B) as [K2 P2]. set (st2 := syncParams ph g st1) in *.
      destruct (syncParams_fields ph g st1) as (F1 & F2 & F3 & F4 & F5 & F6 & F7 & F8 & F9). fold st2 in F1, F2, F3, F4, F5, F6, F7, F8, F9.
      destruct (syncSrc_ok ph g npar (sync S1) st2 n K2 P2) as (st3 & A3 & B3 & D3 & G1 & G2 & G3 & G4). rewrite A3. exists st3. split; auto.
      assert (Fs : forall k, mfind k (p_src (sync S1)) = option_map (fun x => if us_isfree (ss_now x) then refresh x else x) (if (k =? n)%Z then Some (with_now (fun s => set_par s p fr) x) else mfind k (p_src S))).
      { intros k. rewrite find_sync. unfold S1. simpl p_src. destruct (Z.eqb_spec k n) as [->|Hk]. now rewrite mfind_insert_eq. now rewrite mfind_insert_neq. }
      set (x1 := if us_isfree (set_par (ss_now x) p fr) then refresh (with_now (fun s => set_par s p fr) x) else with_now (fun s => set_par s p fr) x).
      assert (Fn1 : mfind n (p_src (sync S1)) = Some x1). { rewrite Fs, Z.eqb_refl. reflexivity. }
      assert (SS3 : spec_step ph g (sync S1) (USyncSrc n) = mk_sst (minsert n (refresh x1) (p_src (sync S1))) (all_values (now (p_src (sync S1)))) (p_eb (sync S1)) (p_best (sync S1)) (p_bestpar (sync S1))).
      { unfold spec_step. rewrite Fn1. reflexivity. }
      assert (Ex1 : ss_now x1 = set_par (ss_now x) p fr) by (unfold x1; destruct (us_isfree (set_par (ss_now x) p fr)); reflexivity).
      assert (En : now (p_src (spec_step ph g (sync S1) (USyncSrc n))) = minsert n (set_par (ss_now x) p fr) m).
      { rewrite SS3. simpl p_src. rewrite now_insert. simpl ss_now. rewrite Ex1. change (onto _ _) with (p_src (sync S1)). rewrite now_sync. unfold S1. simpl p_src. rewrite now_insert. simpl ss_now. rewrite (c_now _ _ _ C).
        apply sorted_ext; repeat apply sorted_insert; auto. intros k. destruct (Z.eq_dec k n) as [->|]. now rewrite !mfind_insert_eq. now rewrite !mfind_insert_neq. }
      assert (Es : u_src st3 = minsert n (set_par (ss_now x) p fr) m) by (rewrite (k_src _ _ _ _ _ B3); auto).
      assert (Gx : us_grid (ss_now x) = None) by apply (c_at _ _ _ C n x F).
      constructor; auto.
      * intros k y. rewrite SS3. simpl p_src. change (onto _ _) with (p_src (sync S1)). destruct (Z.eq_dec k n) as [->|Hk].
        -- rewrite mfind_insert_eq. intros [= <-]. simpl. rewrite Ex1. simpl. now rewrite Gx.
        -- rewrite mfind_insert_neq by auto. rewrite Fs. destruct (Z.eqb_spec k n); [contradiction|]. destruct (mfind k (p_src S)) as [z|] eqn:Fy; [|discriminate]. simpl. destruct (c_at _ _ _ C k z Fy) as [Y1 Y2].
           intros [= <-]. destruct (us_isfree (ss_now z)); simpl; rewrite ?Y2; auto.
      * rewrite SS3. apply C.
      * intros k t j. rewrite Es. intros Ft Fr Hj. rewrite (G4 x1 j Fn1 Hj). simpl. rewrite F5, E1. destruct (Z.eq_dec k n) as [->|Hk].
        -- rewrite mfind_insert_eq in Ft. rewrite mfind_insert_eq. injection Ft as <-. now rewrite Ex1.
        -- rewrite mfind_insert_neq in Ft by auto. rewrite mfind_insert_neq by auto. apply C; auto. now rewrite Em.
    + rewrite H by discriminate. cbn [ubind]. assert (SS1 : spec_step ph g S (USetParam n p fr) = S) by (unfold spec_step; now rewrite F). rewrite SS1.
      destruct (syncSrc_ok ph g npar S st n K P) as (st3 & A3 & B3 & D3 & G1 & G2 & G3 & G4). rewrite A3. exists st3. split; auto.
      assert (Ep : p_src (spec_step ph g S (USyncSrc n)) = p_src S) by (unfold spec_step; rewrite F; reflexivity).
      assert (Es : u_src st3 = u_src st) by (rewrite (k_src _ _ _ _ _ B3), Ep; symmetry; apply K).
      constructor; auto.
      * rewrite Ep. apply C.
      * rewrite Ep. apply C.
      * apply C.
      * rewrite Es, (G3 F). apply C.
  - destruct (setfree_ok ph g npar S st f K P) as [K1 P1]. eexists. split; [reflexivity|].
    unfold spec_step. apply CI_sync; auto.
    + simpl p_src. rewrite (now_onto (fun n => set_free_values (f n))). now rewrite (c_now _ _ _ C).
    + apply C.
    + intros k x. simpl p_src. unfold onto. rewrite (mfind_onto (fun n => with_now (set_free_values (f n)))). destruct (mfind k (p_src S)) as [y|] eqn:Fy; [|discriminate]. intros [= <-]. destruct (c_at _ _ _ C k y Fy) as [Y1 Y2].
      split; [exact Y2|]. simpl ss_now. rewrite isfree_set_free. intros Fr. rewrite set_free_values_fixed by auto. exact Y1.
    + intros k t j. simpl u_src. simpl u_ev. rewrite (mfind_onto (fun n => set_free_values (f n))). destruct (mfind k (u_src st)) as [s|] eqn:Fs; [|discriminate]. intros [= <-]. rewrite isfree_set_free. intros Fr Hj.
      rewrite set_free_values_fixed by auto. now apply C.
  - eexists. split; [reflexivity|]. unfold spec_step. apply CI_sync; auto; try apply C. intros n x F. destruct (c_at _ _ _ C n x F). auto.
  - destruct (value_synced m S st C) as (st' & A & B & _). rewrite A. unfold drop. cbn [ubind]. exists st'. split; auto.
  - destruct (gradient_synced m S st C) as (st' & d & A & B & _). rewrite A. unfold drop. cbn [ubind]. exists st'. split; auto.
Qed.
Lemma init_CI : CI [] spec_init (uinit g).
Proof. destruct (init_ok ph g npar) as [K P]. constructor; auto; simpl; discriminate. Qed.
Lemma urun_app l1 : forall l2 st, urun ph g st (l1 ++ l2) = match urun ph g st l1 with Some st' => urun ph g st' l2 | None => None end.
Proof. induction l1 as [|o l1 IH]; intros; simpl; auto. destruct (ustep ph g st o) as [st' [| |]]; auto. Qed.
Lemma actions_run : forall l m S st, Forall (action_ok npar) l -> CI m S st -> exists st', urun ph g st (flat_map calls l) = Some st' /\ CI (fold_left act l m) (fold_left (spec_step ph g) (flat_map calls l) S) st'.
Proof.
  induction l as [|a l IH]; intros m S st O C; cbn [flat_map fold_left].
  - exists st. auto.
  - inversion O as [|? ? O1 O2]; subst. destruct (action_step m S st a O1 C) as (st1 & A & B). destruct (IH _ _ _ O2 B) as (st2 & D & E).
    exists st2. rewrite urun_app, A. split; auto. rewrite fold_left_app. exact E.
Qed.
Lemma careful_run l : Forall (action_ok npar) l -> exists st, urun ph g (uinit g) (flat_map calls l) = Some st /\ CI (sources_of l) (spec_run ph g (flat_map calls l)) st.
Proof. intros O. apply (actions_run l [] spec_init (uinit g) O init_CI). Qed.
End Careful.

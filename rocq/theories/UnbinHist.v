(** Histories of the unbinned likelihood: for C25, C26, C50. *)
From Coq Require Import Reals Lra Permutation Sorted.
From Verif Require Import Base SMap AccumModel AccumProofs BinnedProofs UnbinModel UnbinSpec UnbinProofs UnbinRuns.
Local Open Scope nat_scope.

Section Hist.
Context (ph : uphys) (g : ucfg) (npar : Z -> nat).
Hypothesis Hc : uc_catch g = false.
Notation nev := (uc_nev g).
Notation Core := (Core ph g npar).

Lemma flux_plain n s j : fst (fluxDensity ph n s j (false, 0%R)) = flux_of ph n s j.
Proof. unfold fluxDensity, flux_of. destruct (us_diffuse s); auto. Qed.
Lemma fold_update_ok n s (b : bool) st : cache_ok ph g (u_cache st) (u_src st) -> mfind n (u_src st) = Some s -> length (u_ev st) = nev ->
  exists c' evs', fold_events g (fun st j => if b then updateSum ph st j n s else (upd_event st j n (fst (fluxDensity ph n s j (false, 0%R)) * up_eff ph j)%R, Ok tt)) st = (w_ev (w_cache st c') evs', Ok tt) /\
    cache_ok ph g c' (u_src st) /\ length evs' = nev /\ forall j, j < nev -> nth j evs' ev_zero = updateModelSum (nth j (u_ev st) ev_zero) n (density ph n s j).
Proof.
  intros C F L. unfold fold_events.
  assert (H : forall k, k <= nev -> exists c' evs', fold_left (fun (r : ures unit) j => ubind r (fun st _ => if b then updateSum ph st j n s else (upd_event st j n (fst (fluxDensity ph n s j (false, 0%R)) * up_eff ph j)%R, Ok tt))) (seq 0 k) (st, Ok tt) = (w_ev (w_cache st c') evs', Ok tt) /\
    cache_ok ph g c' (u_src st) /\ length evs' = nev /\ (forall j, j < k -> nth j evs' ev_zero = updateModelSum (nth j (u_ev st) ev_zero) n (density ph n s j)) /\ forall j, k <= j -> nth j evs' ev_zero = nth j (u_ev st) ev_zero).
  { induction k as [|k IH]; intros Hk.
    - exists (u_cache st), (u_ev st). simpl. split. now destruct st. split; auto. split; auto. split; auto. intros; lia.
    - destruct IH as (c1 & e1 & A & B & D & E1 & E2); [lia|]. rewrite seq_S, fold_left_app. simpl fold_left. rewrite A. cbn [ubind].
      assert (U : exists c2, (if b then updateSum ph (w_ev (w_cache st c1) e1) k n s else (upd_event (w_ev (w_cache st c1) e1) k n (fst (fluxDensity ph n s k (false, 0%R)) * up_eff ph k)%R, Ok tt)) =
        (w_ev (w_cache st c2) (upd e1 k (updateModelSum (nth k e1 ev_zero) n (density ph n s k))), Ok tt) /\ cache_ok ph g c2 (u_src st)).
      { destruct b.
        - unfold updateSum. destruct (cached_flux_ok ph g (w_ev (w_cache st c1) e1) k n s) as (c2 & X & Y); auto. rewrite X. cbn [ubind].
          rewrite upd_event_eq by (simpl; lia). exists c2. split; [|exact Y]. reflexivity.
        - rewrite flux_plain. rewrite upd_event_eq by (simpl; lia). exists c1. split; [reflexivity|exact B]. }
      destruct U as (c2 & X & Y). rewrite X. eexists _, _. split; [reflexivity|]. split; [exact Y|]. split; [now rewrite upd_length|]. split.
      + intros j Hj. destruct (Nat.eq_dec j k) as [->|]. rewrite nth_upd_eq by lia. now rewrite E2. rewrite nth_upd_neq by auto. apply E1. lia.
      + intros j Hj. rewrite nth_upd_neq by lia. apply E2. lia. }
  destruct (H nev) as (c' & evs' & A & B & D & E & _); [lia|]. exists c', evs'. split; auto.
Qed.

Lemma sync_idem S : sync (sync S) = sync S.
Proof.
  unfold sync. simpl. unfold onto. rewrite !map_map. simpl. assert (E : map (fun x : Z * ssrc => (fst x, if us_isfree (ss_now (if us_isfree (ss_now (snd x)) then refresh (snd x) else snd x)) then refresh (if us_isfree (ss_now (snd x)) then refresh (snd x) else snd x) else if us_isfree (ss_now (snd x)) then refresh (snd x) else snd x)) (p_src S) = map (fun nx : Z * ssrc => (fst nx, if us_isfree (ss_now (snd nx)) then refresh (snd nx) else snd nx)) (p_src S)).
  { apply map_ext. intros [n x]. simpl. destruct (us_isfree (ss_now x)) eqn:Ef; simpl; rewrite ?Ef; auto. }
  rewrite E. reflexivity.
Qed.
Lemma keys_insert_eq {V W} n (c : V) (s : W) m1 m2 : sorted m1 -> sorted m2 -> mkeys m1 = mkeys m2 -> mkeys (minsert n c m1) = mkeys (minsert n s m2).
Proof.
  intros S1 S2 H. apply sorted_keys_ext. now apply sorted_insert. now apply sorted_insert. intros x. rewrite !mkeys_insert_in, H. tauto.
Qed.
Lemma keys_erase_eq {V W} n (m1 : SMap.smap V) (m2 : SMap.smap W) : sorted m1 -> sorted m2 -> mkeys m1 = mkeys m2 -> mkeys (merase n m1) = mkeys (merase n m2).
Proof.
  intros S1 S2 H. apply sorted_keys_ext. now apply sorted_erase. now apply sorted_erase. intros x. rewrite !keys_erase by auto. now rewrite H.
Qed.

(** ** addSource *)
Lemma add_ok S st n s : Core S st -> Pv S st -> mfind n (p_src S) = None -> length (us_par s) = npar n -> length (us_fr s) = npar n ->
  exists st', addSource ph g st n s = (st', Ok tt) /\ Core (spec_step ph g S (UAdd n s)) st' /\ Pv (spec_step ph g S (UAdd n s)) st' /\
    u_free st' = free_names (u_src st') /\ u_pv st' = flat_params (u_src st') /\
    (forall j, j < nev -> nth j (u_ev st') ev_zero = updateModelSum (nth j (u_ev st) ev_zero) n (density ph n s j)).
Proof.
  intros K P Fn L1 L2. unfold addSource. rewrite (k_src _ _ _ _ _ K), mfind_now, Fn. simpl option_map. cbv iota.
  set (S1 := with_psrc S (minsert n (mk_ss s (us_par s, us_grid s)) (p_src S))).
  set (st1 := w_src st (minsert n s (now (p_src S)))).
  assert (Es1 : u_src st1 = now (p_src S1)) by (unfold st1, S1; simpl; now rewrite now_insert).
  assert (Ss1 : sorted (p_src S1)) by (apply sorted_insert, K).
  assert (Le1 : lens npar (p_src S1)).
  { intros m x. unfold S1. simpl. destruct (Z.eq_dec m n) as [->|]. rewrite mfind_insert_eq. intros [= <-]; auto. rewrite mfind_insert_neq by auto. apply K. }
  destruct (syncParams_fields ph g st1) as (F1 & F2 & F3 & F4 & F5 & F6 & F7 & F8 & F9).
  assert (C1 : cache_ok ph g (u_cache (syncParams ph g st1)) (u_src (syncParams ph g st1))).
  { rewrite F1, F4, Es1. unfold st1; simpl. eapply cache_ok_img; [|apply K]. intros m t Ft. rewrite (k_src _ _ _ _ _ K), mfind_now in Ft.
    exists t. split; auto. unfold S1. simpl. rewrite now_insert. rewrite mfind_insert_neq. now rewrite mfind_now. intros ->. rewrite Fn in Ft. discriminate. }
  assert (Fs : mfind n (u_src (syncParams ph g st1)) = Some s). { rewrite F1. unfold st1. simpl. apply mfind_insert_eq. }
  assert (Lev : length (u_ev (syncParams ph g st1)) = nev). { rewrite F5. apply K. }
  destruct (fold_update_ok n s (if uc_new g then us_isfree s else true) _ C1 Fs Lev) as (c' & evs' & A & B & D & E).
  rewrite A. cbn [ubind]. eexists. split; [reflexivity|].
  assert (SS : spec_step ph g S (UAdd n s) = with_best (sync S1) worst (p_bestpar S)).
  { unfold spec_step. now rewrite Fn. }
  rewrite SS. split; [|split].
  - constructor.
    + transitivity (now (p_src S1)); [|symmetry; apply now_sync]. transitivity (u_src st1); [exact F1|exact Es1].
    + exact (sorted_sync S1 Ss1).
    + exact (lens_sync npar S1 Le1).
    + transitivity (u_eb st1); [exact F7|exact (k_eb _ _ _ _ _ K)].
    + reflexivity.
    + transitivity (u_bestpar st1); [exact F9|exact (k_bestpar _ _ _ _ _ K)].
    + transitivity (u_acc st1); [exact F6|exact (k_acc _ _ _ _ _ K)].
    + intros N. assert (En : u_np (syncParams ph g st1) = fold_left (fun np n0 => minsert n0 (npred_in ph (u_src st1) n0) np) (free_names (u_src st1)) (u_np st)) by (unfold syncParams; rewrite N; reflexivity).
      change (minsert n (npred_of ph s) (u_np (syncParams ph g st1)) = np_of ph (p_src (sync S1))). rewrite En. clear En. rewrite Es1. apply sorted_ext.
      * apply sorted_insert, sorted_fold_np. rewrite (k_np _ _ _ _ _ K N). apply sorted_np, K.
      * apply sorted_np. now apply (sorted_sync S1).
      * intros k. rewrite mfind_np. rewrite find_sync. destruct (Z.eq_dec k n) as [->|Hk].
        -- rewrite mfind_insert_eq. unfold S1. simpl. rewrite mfind_insert_eq. simpl. destruct (us_isfree s); reflexivity.
        -- rewrite mfind_insert_neq by auto. rewrite mfind_fold_np. rewrite free_names_find by now apply sorted_now.
           unfold npred_in. rewrite mfind_now. unfold S1 at 1 2 3. simpl. rewrite !mfind_insert_neq by auto.
           rewrite (k_np _ _ _ _ _ K N), mfind_np. destruct (mfind k (p_src S)) as [x|]; simpl; auto. destruct (us_isfree (ss_now x)); auto.
    + exact B.
    + split; [exact D|]. intros j Hj. rewrite E by auto. rewrite F5. destruct (k_ev _ _ _ _ _ K) as [_ V]. destruct (V j Hj) as [G Kk]. split.
      * now apply update_good.
      * transitivity (mkeys (u_src st1)); [|f_equal; symmetry; exact F1]. unfold st1. simpl. apply keys_insert_eq. apply G. apply sorted_now, K. rewrite Kk. now rewrite (k_src _ _ _ _ _ K).
  - split.
    + transitivity (map fst (flat_params (u_src st1))); [f_equal; exact F3|]. rewrite Es1. transitivity (all_values (now (p_src (sync S1)))); [|reflexivity]. rewrite now_sync. now apply lens_flat with (npar := npar).
    + reflexivity.
  - split; [|split].
    + transitivity (free_names (u_src st1)); [exact F2|]. f_equal. symmetry. exact F1.
    + transitivity (flat_params (u_src st1)); [exact F3|]. f_equal. symmetry. exact F1.
    + intros j Hj. transitivity (nth j evs' ev_zero); [reflexivity|]. rewrite E by auto. now rewrite F5.
Qed.

(** ** deleteSource *)
Lemma delete_ok S st n : Core S st -> Pv S st -> exists st' o, deleteSource ph g st n = (st', o) /\ o <> UB /\ Core (spec_step ph g S (UDelete n)) st' /\ Pv (spec_step ph g S (UDelete n)) st' /\
    (mfind n (p_src S) <> None -> u_free st' = free_names (u_src st') /\ u_pv st' = flat_params (u_src st')) /\ (mfind n (p_src S) = None -> u_free st' = u_free st /\ u_pv st' = u_pv st) /\
    (forall j, j < nev -> nth j (u_ev st') ev_zero = ev_deleteSource (nth j (u_ev st) ev_zero) n).
Proof.
  intros K P. unfold deleteSource. simpl u_src.
  set (st1 := w_best _ _ _). set (S1 := with_psrc (with_best S worst (p_bestpar S)) (merase n (p_src S))).
  assert (Hev : forall j, j < nev -> nth j (u_ev st1) ev_zero = ev_deleteSource (nth j (u_ev st) ev_zero) n).
  { intros j Hj. unfold st1. simpl. rewrite (nth_indep _ ev_zero (ev_deleteSource ev_zero n)) by (rewrite map_length; destruct (k_ev _ _ _ _ _ K); lia). apply (map_nth (fun e => ev_deleteSource e n)). }
  assert (Cc : forall srcs, (forall m s, m <> n -> mfind m (u_src st) = Some s -> mfind m srcs = Some s) -> cache_ok ph g (u_cache st1) srcs).
  { intros srcs Hs. destruct (k_cache _ _ _ _ _ K) as (A & [B1 B2] & C). unfold st1. simpl. split; [exact A|]. split; [split; [now apply sorted_erase|]|].
    - simpl. intros m v. destruct (Z.eq_dec m n) as [->|]. rewrite mfind_erase_eq by auto. discriminate. rewrite mfind_erase_neq by auto. apply B2.
    - simpl. intros m v. destruct (Z.eq_dec m n) as [->|]. rewrite mfind_erase_eq by auto. discriminate. rewrite mfind_erase_neq by auto. intros F. destruct (C m v F) as (s & Fs & Hr). exists s. split; auto. }
  assert (K1 : Core S1 (w_src st1 (merase n (u_src st)))).
  { constructor; simpl; try apply K; try reflexivity.
    - rewrite now_erase. now rewrite (k_src _ _ _ _ _ K).
    - apply sorted_erase, K.
    - intros m x. destruct (Z.eq_dec m n) as [->|]. rewrite mfind_erase_eq by apply K. discriminate. rewrite mfind_erase_neq by auto. apply K.
    - intros N. rewrite (k_np _ _ _ _ _ K N). apply sorted_ext. apply sorted_erase, sorted_np, K. apply sorted_np, sorted_erase, K.
      intros k. rewrite mfind_np. destruct (Z.eq_dec k n) as [->|]. rewrite !mfind_erase_eq; auto. apply K. apply sorted_np, K. rewrite !mfind_erase_neq by auto. apply mfind_np.
    - apply Cc. intros m s Hm F. now rewrite mfind_erase_neq.
    - split. rewrite map_length. apply K. intros j Hj. pose proof (Hev j Hj) as He. simpl in He. rewrite He.
      destruct (k_ev _ _ _ _ _ K) as [_ V]. destruct (V j Hj) as [G Kk]. split. now apply delete_good. rewrite delete_flux by apply G. apply keys_erase_eq; auto. apply G. rewrite (k_src _ _ _ _ _ K). apply sorted_now, K. }
  rewrite (k_src _ _ _ _ _ K), mfind_now.
  destruct (mfind n (p_src S)) as [x|] eqn:Fn; simpl option_map; cbv iota.
  - eexists _, _. split; [reflexivity|]. split; [discriminate|].
    assert (SS : spec_step ph g S (UDelete n) = sync S1). { unfold spec_step. cbv zeta. simpl p_src. now rewrite Fn. }
    rewrite SS. rewrite (k_src _ _ _ _ _ K) in K1. destruct (sync_ok ph g npar _ _ K1) as [K2 P2]. split; [exact K2|]. split; [exact P2|].
    destruct (syncParams_fields ph g (w_src st1 (merase n (now (p_src S))))) as (F1 & F2 & F3 & F4 & F5 & F6 & F7 & F8 & F9).
    split; [|split]. intros _. rewrite F1, F2, F3. auto. discriminate. intros j Hj. rewrite F5. now apply Hev.
  - eexists _, _. split; [reflexivity|]. split; [discriminate|].
    assert (SS : spec_step ph g S (UDelete n) = with_best S worst (p_bestpar S)). { unfold spec_step. cbv zeta. simpl p_src. now rewrite Fn. }
    rewrite SS. assert (Er : merase n (p_src S) = p_src S) by now apply merase_absent.
    assert (E1 : S1 = with_best S worst (p_bestpar S)). { unfold S1, with_psrc, with_best. simpl. now rewrite Er. }
    rewrite E1 in K1. assert (E2 : merase n (u_src st) = u_src st). { apply merase_absent. rewrite (k_src _ _ _ _ _ K), mfind_now, Fn. auto. }
    rewrite E2 in K1. split; [exact K1|]. split; [exact P|]. split; [congruence|]. split; auto.
Qed.

(** ** syncSrcParams *)
Lemma syncSrc_ok S st n : Core S st -> Pv S st -> exists st', syncSrcParams ph g st n = (st', Ok tt) /\ Core (spec_step ph g S (USyncSrc n)) st' /\ Pv (spec_step ph g S (USyncSrc n)) st' /\
   u_free st' = free_names (u_src st') /\ u_pv st' = flat_params (u_src st') /\
   (mfind n (p_src S) = None -> u_ev st' = u_ev st) /\
   (forall x j, mfind n (p_src S) = Some x -> j < nev -> nth j (u_ev st') ev_zero = updateModelSum (nth j (u_ev st) ev_zero) n (density ph n (ss_now x) j)).
Proof.
  intros K P. unfold syncSrcParams. simpl u_src. rewrite (k_src _ _ _ _ _ K), mfind_now. unfold spec_step.
  destruct (mfind n (p_src S)) as [x|] eqn:Fn; simpl option_map; cbv iota.
  - set (st1 := w_np (base_sync st) (minsert n (npred_of ph (ss_now x)) (u_np (base_sync st)))).
    destruct (fold_update_ok n (ss_now x) true st1) as (c' & evs' & A & B & D & E).
    + apply K. + unfold st1. simpl. rewrite (k_src _ _ _ _ _ K), mfind_now, Fn. auto. + apply K.
    + cbv iota in A. rewrite A. eexists. split; [reflexivity|].
      assert (Q : now (minsert n (refresh x) (p_src S)) = now (p_src S)).
      { rewrite now_insert. apply sorted_ext. apply sorted_insert, sorted_now, K. apply sorted_now, K. intros k. destruct (Z.eq_dec k n) as [->|].
        rewrite mfind_insert_eq, mfind_now, Fn. auto. now rewrite mfind_insert_neq. }
      split; [|split; [|split; [reflexivity|split; [reflexivity|split; [discriminate|]]]]].
      * constructor; simpl; try apply K.
        -- rewrite Q. apply K.
        -- apply sorted_insert, K.
        -- intros m y. destruct (Z.eq_dec m n) as [->|]. rewrite mfind_insert_eq. intros [= <-]. apply (k_len _ _ _ _ _ K n x Fn). rewrite mfind_insert_neq by auto. apply K.
        -- intros N. rewrite (k_np _ _ _ _ _ K N). apply sorted_ext. apply sorted_insert, sorted_np, K. apply sorted_np, sorted_insert, K. intros k. rewrite mfind_np.
           destruct (Z.eq_dec k n) as [->|]. rewrite !mfind_insert_eq. auto. rewrite !mfind_insert_neq by auto. apply mfind_np.
        -- exact B.
        -- split; [exact D|]. intros j Hj. rewrite E by auto. simpl. destruct (k_ev _ _ _ _ _ K) as [_ V]. destruct (V j Hj) as [G Kk]. split. now apply update_good.
           simpl. rewrite <- Kk. apply keys_insert_present. apply G. rewrite Kk, (k_src _ _ _ _ _ K), mkeys_now. apply mfind_in in Fn. apply (in_map fst) in Fn. exact Fn.
      * split; simpl. rewrite (k_src _ _ _ _ _ K). apply lens_flat with (npar := npar); [apply K|exact (k_len _ _ _ _ _ K)]. now rewrite Q.
      * intros y j [= <-] Hj. now rewrite E.
  - eexists. split; [reflexivity|]. split; [|split; [|split; [reflexivity|split; [reflexivity|split; [reflexivity|discriminate]]]]].
    + destruct K. constructor; simpl; auto.
    + split; simpl; auto. rewrite (k_src _ _ _ _ _ K). apply lens_flat with (npar := npar); [apply K|exact (k_len _ _ _ _ _ K)].
Qed.

(** ** Energy bounds *)
Lemma mfind_fold_src k : forall (l : list (Z * usrc)) np, NoDup (map fst l) -> mfind k (fold_left (fun np ns => minsert (fst ns) (npred_of ph (snd ns)) np) l np) = match mfind k l with Some s => Some (npred_of ph s) | None => mfind k np end.
Proof.
  induction l as [|[n s] l IH]; intros np ND; simpl; auto. inversion ND as [|? ? Hn ND']; subst. rewrite IH by auto.
  destruct (Z.eqb_spec k n) as [->|]. assert (E : mfind n l = None) by (apply mfind_none; exact Hn). rewrite E. apply mfind_insert_eq.
  destruct (mfind k l); auto. now rewrite mfind_insert_neq.
Qed.
Lemma sorted_fold_src : forall (l : list (Z * usrc)) np, sorted np -> sorted (fold_left (fun np ns => minsert (fst ns) (npred_of ph (snd ns)) np) l np).
Proof. induction l; simpl; auto. intros. apply IHl. now apply sorted_insert. Qed.
Lemma refresh_all_ok S st : Core S st -> Pv S st -> let S' := mk_sst (onto (fun _ x => refresh x) (p_src S)) (p_pv S) (p_eb S) (p_best S) (p_bestpar S) in Core S' (update_npreds ph st) /\ Pv S' (update_npreds ph st).
Proof.
  intros K P S'. assert (Q : now (p_src S') = now (p_src S)). { unfold S', now, onto. simpl. rewrite map_map. reflexivity. }
  split.
  - constructor; try apply K.
    + rewrite Q. apply K.
    + apply (sorted_onto (fun _ x => refresh x)), K.
    + intros n x. unfold S', onto. simpl. rewrite (mfind_onto (fun _ x => refresh x)). destruct (mfind n (p_src S)) as [y|] eqn:F; [|discriminate]. intros [= <-]. apply (k_len _ _ _ _ _ K n y F).
    + intros N. unfold update_npreds. simpl. apply sorted_ext.
      * apply sorted_fold_src. rewrite (k_np _ _ _ _ _ K N). apply sorted_np, K.
      * apply sorted_np. apply (sorted_onto (fun _ x => refresh x)), K.
      * intros k. rewrite mfind_fold_src. 2: { rewrite (k_src _ _ _ _ _ K). apply sorted_nodup, sorted_now, K. }
        rewrite mfind_np. unfold onto. rewrite (mfind_onto (fun _ x => refresh x)). rewrite (k_src _ _ _ _ _ K), mfind_now, (k_np _ _ _ _ _ K N), mfind_np.
        destruct (mfind k (p_src S)); auto.
  - destruct P as [A B]. split; [exact A|]. rewrite Q. exact B.
Qed.
Lemma Pv_change S st m' : Pv S st -> Forall2 sim (p_src S) m' -> Pv (with_psrc S m') (w_src st (now m')).
Proof. intros [A B] H. split; [exact A|]. simpl. rewrite (sim_values _ _ H). exact B. Qed.
Lemma Core_eb S st eb : Core S st -> Core (mk_sst (p_src S) (p_pv S) eb (p_best S) (p_bestpar S)) (w_eb st eb).
Proof. intros []. constructor; auto. Qed.

(** ** Every call *)
Lemma sim_par n x p fr : length p = npar n -> length fr = npar n -> length (us_par (ss_now x)) = npar n /\ length (us_fr (ss_now x)) = npar n -> sim (n, x) (n, with_now (fun s => set_par s p fr) x).
Proof. intros A B [C D]. repeat split; simpl; congruence. Qed.
Lemma poke_ok S st n (f : usrc -> usrc) : Core S st -> Pv S st ->
  (forall x, mfind n (p_src S) = Some x -> sim (n, x) (n, with_now f x)) ->
  match mfind n (p_src S) with
  | None => poke st n f = (st, Throw)
  | Some x => exists st', poke st n f = (st', Ok tt) /\ Core (with_psrc S (minsert n (with_now f x) (p_src S))) st' /\ Pv (with_psrc S (minsert n (with_now f x) (p_src S))) st' /\
      u_ev st' = u_ev st /\ u_free st' = u_free st /\ u_pv st' = u_pv st
  end.
Proof.
  intros K P H. unfold poke. rewrite (k_src _ _ _ _ _ K), mfind_now. destruct (mfind n (p_src S)) as [x|] eqn:F; simpl; auto.
  eexists. split; [reflexivity|]. assert (Q : Forall2 sim (p_src S) (minsert n (with_now f x) (p_src S))) by (eapply sim_insert; eauto; apply K).
  assert (E : minsert n (f (ss_now x)) (now (p_src S)) = now (minsert n (with_now f x) (p_src S))) by now rewrite now_insert.
  rewrite E. split. now apply Core_change. split. now apply Pv_change. auto.
Qed.
Lemma free_values_sim n x f : length (us_fr (ss_now x)) = length (us_fr (ss_now x)) -> sim (n, x) (n, with_now (set_free_values f) x).
Proof. repeat split; simpl. now rewrite map_length, seq_length. Qed.
Lemma setfree_ok S st f : Core S st -> Pv S st ->
  let S1 := with_psrc S (onto (fun n => with_now (set_free_values (f n))) (p_src S)) in let st1 := w_src st (map (fun ns => (fst ns, set_free_values (f (fst ns)) (snd ns))) (u_src st)) in
  Core S1 st1 /\ Pv S1 st1.
Proof.
  intros K P S1 st1.
  assert (Q : Forall2 sim (p_src S) (onto (fun n => with_now (set_free_values (f n))) (p_src S))) by (apply sim_onto; intros; apply free_values_sim; auto).
  assert (E : map (fun ns => (fst ns, set_free_values (f (fst ns)) (snd ns))) (u_src st) = now (onto (fun n => with_now (set_free_values (f n))) (p_src S))).
  { rewrite (k_src _ _ _ _ _ K). unfold now, onto. rewrite !map_map. reflexivity. }
  unfold st1. rewrite E. split. now apply Core_change. now apply Pv_change.
Qed.
Lemma restore_ok S st : Core S st -> Pv S st -> exists st' o, restoreBestFit ph g st = (st', o) /\ o <> UB /\ Core (spec_step ph g S URestore) st' /\ Pv (spec_step ph g S URestore) st' /\
  (length (p_bestpar S) = length (p_pv S) -> o = Ok tt /\ u_ev st' = u_ev st /\ u_free st' = free_names (u_src st') /\ u_pv st' = flat_params (u_src st')).
Proof.
  intros K P. unfold restoreBestFit, setParamValues. unfold spec_step. rewrite (k_bestpar _ _ _ _ _ K).
  assert (L : length (u_pv st) = length (p_pv S)) by (rewrite <- (proj1 P), map_length; auto). rewrite L.
  destruct (Nat.eqb_spec (length (p_bestpar S)) (length (p_pv S))) as [E|E].
  - cbn [ubind]. assert (Q : Forall2 sim (p_src S) (give (p_src S) (p_bestpar S))) by (apply sim_give; rewrite E; apply P).
    rewrite (k_src _ _ _ _ _ K), now_give. pose proof (Core_change ph g npar S st _ K Q) as K1.
    destruct (sync_ok ph g npar _ _ K1) as [K2 P2]. destruct (sync_ok ph g npar _ _ K2) as [K3 P3]. rewrite sync_idem in K3, P3.
    eexists _, _. split; [reflexivity|]. split; [discriminate|]. split; [exact K3|]. split; [exact P3|]. intros _. split; auto.
    destruct (syncParams_fields ph g (syncParams ph g (w_src st (now (give (p_src S) (p_bestpar S)))))) as (F1 & F2 & F3 & F4 & F5 & F6 & F7 & F8 & F9).
    rewrite F1, F2, F3, F5. destruct (syncParams_fields ph g (w_src st (now (give (p_src S) (p_bestpar S))))) as (_ & _ & _ & _ & G5 & _). rewrite G5. auto.
  - cbn [ubind]. exists st, Throw. split; [reflexivity|]. split; [discriminate|]. split; [exact K|]. split; [exact P|]. intros; contradiction.
Qed.
Lemma Rltb_irrefl x : Rltb x x = false.
Proof. destruct (Rltb_spec x x); auto. lra. Qed.
Lemma saveCurrent_ok S st : Core S st -> Pv S st -> exists st', saveCurrentFit ph g st = (st', Ok tt) /\ Core (spec_step ph g S USaveCurrent) st' /\ Pv (spec_step ph g S USaveCurrent) st'.
Proof.
  intros K P. unfold saveCurrentFit. destruct (sync_ok ph g npar S st K) as [K1 P1]. unfold spec_step. cbv zeta.
  set (st1 := syncParams ph g st) in *. set (S1 := sync S) in *.
  set (S2 := with_best S1 worst (p_bestpar S1)).
  assert (K2 : Core S2 (w_best st1 worst (u_bestpar st1))). { destruct K1. constructor; simpl; auto. }
  destruct (value_ok ph g npar S2 _ Hc K2 P1) as (st' & A & B & D & E1 & E2 & _). rewrite A. cbn [ubind].
  assert (V : spec_value ph g S2 = spec_value ph g S1) by reflexivity. rewrite V in *.
  unfold spec_step in B, D. rewrite V in B, D. change (p_best S2) with worst in B, D. change (p_eb S2) with (p_eb S1) in B, D.
  eexists. split; [reflexivity|]. unfold saveBestFit. rewrite (k_best _ _ _ _ _ B).
  destruct (excluded g (p_eb S1)) eqn:X; cbn [negb andb] in B, D |- *.
  - change (p_best S2) with worst. destruct (Rltb worst (spec_value ph g S1)) eqn:L.
    + split. 2: exact D. destruct B. constructor; simpl in *; auto. apply D.
    + split; [exact B|exact D].
  - destruct (Rltb worst (spec_value ph g S1)) eqn:L.
    + simpl p_best. rewrite Rltb_irrefl. split; [exact B|exact D].
    + change (p_best S2) with worst. rewrite L. split; [exact B|exact D].
Qed.

Lemma step_ok S st o : uordinary npar o -> Core S st -> Pv S st -> exists st' r, ustep ph g st o = (st', r) /\ Core (spec_step ph g S o) st' /\ Pv (spec_step ph g S o) st' /\ (o <> UGradient -> r <> UB).
Proof.
  intros O K P. destruct o as [n s|n|n p fr|n p fr|f| |n|a b| |n i| | | |]; cbn [ustep].
  - destruct O as [L1 L2]. destruct (mfind n (p_src S)) as [x|] eqn:F.
    + exists st, Throw. unfold addSource, spec_step. rewrite (k_src _ _ _ _ _ K), mfind_now, F. simpl. repeat (split; auto). discriminate.
    + destruct (add_ok S st n s K P F L1 L2) as (st' & A & B & D & _). exists st', (Ok tt). repeat (split; auto). discriminate.
  - destruct (delete_ok S st n K P) as (st' & o & A & B & D & E & _). exists st', o. repeat (split; auto).
  - destruct O as [L1 L2]. unfold spec_step. pose proof (poke_ok S st n (fun s => set_par s p fr) K P) as H.
    destruct (mfind n (p_src S)) as [x|] eqn:F.
    + destruct H as (st' & A & B & D & _). { intros y [= <-]. apply sim_par; auto. apply (k_len _ _ _ _ _ K n x F). } exists st', (Ok tt). repeat (split; auto). discriminate.
    + rewrite H by discriminate. exists st, Throw. repeat (split; auto). discriminate.
  - destruct O as [L1 L2]. unfold spec_step. pose proof (poke_ok S st n (fun s => set_par s p fr) K P) as H.
    destruct (mfind n (p_src S)) as [x|] eqn:F.
    + destruct H as (st' & A & B & D & _). { intros y [= <-]. apply sim_par; auto. apply (k_len _ _ _ _ _ K n x F). } rewrite A. cbn [ubind]. destruct (sync_ok ph g npar _ _ B) as [K2 P2].
      eexists _, (Ok tt). split; [reflexivity|]. split; [exact K2|]. split; [exact P2|discriminate].
    + rewrite H by discriminate. cbn [ubind]. exists st, Throw. repeat (split; auto). discriminate.
  - destruct (setfree_ok S st f K P) as [K1 P1]. destruct (sync_ok ph g npar _ _ K1) as [K2 P2]. eexists _, (Ok tt). split; [reflexivity|]. split; [exact K2|]. split; [exact P2|discriminate].
  - destruct (sync_ok ph g npar _ _ K) as [K2 P2]. eexists _, (Ok tt). split; [reflexivity|]. split; [exact K2|]. split; [exact P2|discriminate].
  - destruct (syncSrc_ok S st n K P) as (st' & A & B & D & _). exists st', (Ok tt). repeat (split; auto). discriminate.
  - assert (Q : Forall2 sim (p_src S) (onto (fun _ => with_now (fun s => set_grid s (Some (a, b)))) (p_src S))) by (apply sim_onto; intros; repeat split).
    pose proof (Core_change ph g npar S st _ K Q) as K1. pose proof (Pv_change S st _ P Q) as P1.
    pose proof (Core_eb _ _ (Some (a, b)) K1) as K2.
    assert (P2 : Pv (mk_sst (onto (fun _ => with_now (fun s => set_grid s (Some (a, b)))) (p_src S)) (p_pv S) (Some (a, b)) (p_best S) (p_bestpar S)) (w_eb (w_src st (now (onto (fun _ => with_now (fun s => set_grid s (Some (a, b)))) (p_src S)))) (Some (a, b)))) by exact P1.
    destruct (refresh_all_ok _ _ K2 P2) as [K3 P3].
    exists (set_ebounds ph st a b), (Ok tt). split; [reflexivity|].
    assert (E1 : set_ebounds ph st a b = update_npreds ph (w_eb (w_src st (now (onto (fun _ => with_now (fun s => set_grid s (Some (a, b)))) (p_src S)))) (Some (a, b)))).
    { unfold set_ebounds. f_equal. rewrite (k_src _ _ _ _ _ K). unfold now, onto. rewrite !map_map. reflexivity. }
    rewrite E1.
    assert (E2 : spec_step ph g S (USetEb a b) = mk_sst (onto (fun _ x => refresh x) (onto (fun _ => with_now (fun s => set_grid s (Some (a, b)))) (p_src S))) (p_pv S) (Some (a, b)) (p_best S) (p_bestpar S)).
    { unfold spec_step. f_equal. unfold onto. rewrite map_map. reflexivity. }
    rewrite E2. split; [exact K3|]. split; [exact P3|discriminate].
  - pose proof (Core_eb _ _ None K) as K2. destruct (refresh_all_ok _ _ K2 P) as [K3 P3]. exists (unset_ebounds ph st), (Ok tt). split; [reflexivity|]. split; [exact K3|]. split; [exact P3|discriminate].
  - destruct O.
  - destruct (value_ok ph g npar S st Hc K P) as (st' & A & B & D & _). rewrite A. exists st', (Ok tt). split; [reflexivity|]. split; [exact B|]. split; [exact D|discriminate].
  - destruct (gradient_ok ph g npar S st Hc K P) as (st' & o & A & B & D & _). rewrite A. unfold drop. destruct o; cbn [ubind]; eexists _, _; (split; [reflexivity|]; split; [exact B|]; split; [exact D|congruence]).
  - destruct (restore_ok S st K P) as (st' & o & A & B & D & E & _). exists st', o. repeat (split; auto).
  - destruct (saveCurrent_ok S st K P) as (st' & A & B & D). exists st', (Ok tt). repeat (split; auto). discriminate.
Qed.
Lemma init_ok : Core spec_init (uinit g) /\ Pv spec_init (uinit g).
Proof.
  split; [|split; reflexivity]. constructor; simpl; auto.
  - constructor.
  - discriminate.
  - split; auto. split; [split; simpl; [constructor|discriminate]|]. simpl. discriminate.
  - split. now rewrite repeat_length. intros j Hj. rewrite nth_repeat. split; [split|]; simpl; auto. constructor.
Qed.
Lemma run_ok : forall l S st st', Forall (uordinary npar) l -> Core S st -> Pv S st -> urun ph g st l = Some st' -> Core (fold_left (spec_step ph g) l S) st' /\ Pv (fold_left (spec_step ph g) l S) st'.
Proof.
  induction l as [|o l IH]; intros S st st' O K P H; simpl in H |- *.
  - inversion H; subst; auto.
  - inversion O as [|? ? O1 O2]; subst. destruct (step_ok S st o O1 K P) as (st1 & r & A & B & D & E). rewrite A in H.
    destruct r; try discriminate; eapply IH; eauto.
Qed.
Lemma run_some : forall l S st, Forall (uordinary npar) l -> ~ In UGradient l -> Core S st -> Pv S st -> exists st', urun ph g st l = Some st'.
Proof.
  induction l as [|o l IH]; intros S st O N K P; simpl.
  - eauto.
  - inversion O as [|? ? O1 O2]; subst. destruct (step_ok S st o O1 K P) as (st1 & r & A & B & D & E). rewrite A.
    destruct r; try (eapply IH; eauto; intros I; apply N; now right). exfalso. apply E; auto. intros ->. apply N. now left.
Qed.
End Hist.

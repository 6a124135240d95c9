(** Every call of the unbinned likelihood keeps what a client has to keep in mind: for C25, C26. *)
From Coq Require Import Reals Lra Permutation Sorted.
From Verif Require Import Base SMap AccumModel AccumProofs BinnedProofs UnbinModel UnbinSpec UnbinProofs.
Local Open Scope nat_scope.

Section Runs.
Context (ph : uphys) (g : ucfg) (npar : Z -> nat).
Notation nev := (uc_nev g).
Definition at_npred (x : ssrc) : R := up_npred ph (us_fn (ss_now x)) (us_img (ss_now x)) (snd (ss_at x)) (fst (ss_at x)).
Definition np_of (m : SMap.smap ssrc) : SMap.smap R := map (fun nx => (fst nx, at_npred (snd nx))) m.
Record Core (S : sst) (st : ust) : Prop := {
  k_src : u_src st = now (p_src S); k_sorted : sorted (p_src S);
  k_len : forall n x, mfind n (p_src S) = Some x -> length (us_par (ss_now x)) = npar n /\ length (us_fr (ss_now x)) = npar n;
  k_eb : u_eb st = p_eb S; k_best : u_best st = p_best S; k_bestpar : u_bestpar st = p_bestpar S; k_acc : u_acc st = 0%R;
  k_np : uc_new g = true -> u_np st = np_of (p_src S);
  k_cache : cache_ok ph g (u_cache st) (u_src st); k_ev : evs_ok g (u_src st) (u_ev st) }.
Definition Pv (S : sst) (st : ust) : Prop := map fst (u_pv st) = p_pv S /\ length (p_pv S) = length (all_values (now (p_src S))).

Lemma mfind_now n m : mfind n (now m) = option_map ss_now (mfind n m).
Proof. apply (mfind_onto (fun _ => ss_now)). Qed.
Lemma mkeys_now m : mkeys (now m) = mkeys m.
Proof. apply (mkeys_onto (fun _ => ss_now)). Qed.
Lemma sorted_now m : sorted m -> sorted (now m).
Proof. unfold sorted. now rewrite mkeys_now. Qed.
Lemma mfind_np n m : mfind n (np_of m) = option_map at_npred (mfind n m).
Proof. apply (mfind_onto (fun _ => at_npred)). Qed.
Lemma sorted_np m : sorted m -> sorted (np_of m).
Proof. apply (sorted_onto (fun _ => at_npred)). Qed.

Lemma cache_ok_img c srcs srcs' : (forall n s, mfind n srcs = Some s -> exists s', mfind n srcs' = Some s' /\ us_img s' = us_img s) -> cache_ok ph g c srcs -> cache_ok ph g c srcs'.
Proof.
  intros H (A & B & C). split; [exact A|]. split; [exact B|]. intros n v F. destruct (C n v F) as (s & Fs & Hs). destruct (H n s Fs) as (s' & Fs' & E).
  exists s'. split; auto. intros j. rewrite E. apply Hs.
Qed.
Lemma evs_ok_keys srcs srcs' evs : mkeys srcs' = mkeys srcs -> evs_ok g srcs evs -> evs_ok g srcs' evs.
Proof. intros H [A B]. split; auto. intros j Hj. destruct (B j Hj) as [G K]. split; auto. now rewrite H. Qed.

Definition sim (a b : Z * ssrc) : Prop :=
  fst a = fst b /\ us_fn (ss_now (snd a)) = us_fn (ss_now (snd b)) /\ us_img (ss_now (snd a)) = us_img (ss_now (snd b)) /\ ss_at (snd a) = ss_at (snd b) /\
  length (us_par (ss_now (snd a))) = length (us_par (ss_now (snd b))) /\ length (us_fr (ss_now (snd a))) = length (us_fr (ss_now (snd b))).
Lemma sim_refl a : sim a a. Proof. repeat split. Qed.
Lemma sim_keys m m' : Forall2 sim m m' -> mkeys m' = mkeys m.
Proof. induction 1 as [|a b m m' H]; simpl; auto. destruct H as [H _]. now f_equal. Qed.
Lemma sim_find m m' : Forall2 sim m m' -> forall n x', mfind n m' = Some x' -> exists x, mfind n m = Some x /\ sim (n, x) (n, x').
Proof.
  induction 1 as [|[a x] [b y] m m' H _ IH]; intros n x' E; [discriminate|]. pose proof H as [Hk H']. simpl in Hk. subst b. simpl in *.
  destruct (Z.eqb_spec n a) as [->|]; [|now apply IH]. inversion E; subst. exists x. split; auto.
Qed.
Lemma sim_np m m' : Forall2 sim m m' -> np_of m' = np_of m.
Proof.
  induction 1 as [|[a x] [b y] m m' H _ IH]; simpl; auto. destruct H as (A & B & C & D & _). simpl in *. subst b. f_equal; auto.
  unfold at_npred. now rewrite B, C, D.
Qed.
Lemma sim_values m m' : Forall2 sim m m' -> length (all_values (now m')) = length (all_values (now m)).
Proof.
  induction 1 as [|[a x] [b y] m m' H _ IH]; simpl; auto. destruct H as (A & B & C & D & E & F). simpl in *. unfold all_values in *. simpl. rewrite !app_length. lia.
Qed.
Lemma sim_insert n x y : forall m, sorted m -> mfind n m = Some x -> sim (n, x) (n, y) -> Forall2 sim m (minsert n y m).
Proof.
  induction m as [|[k z] m IH]; intros Sm F H; [discriminate|]. simpl in F |- *. apply sorted_cons in Sm as [Sm Fo]. rewrite Forall_forall in Fo.
  destruct (Z.eqb_spec n k) as [->|Hk].
  - inversion F; subst. rewrite Z.ltb_irrefl. constructor; auto. clear. induction m; constructor; auto. apply sim_refl.
  - assert (k < n)%Z. { apply mfind_in in F. apply (in_map fst) in F. apply Fo in F. exact F. }
    destruct (Z.ltb_spec n k); [lia|]. constructor. apply sim_refl. auto.
Qed.
Lemma sim_onto (f : Z -> ssrc -> ssrc) m : (forall n x, In (n, x) m -> sim (n, x) (n, f n x)) -> Forall2 sim m (onto f m).
Proof.
  unfold onto. induction m as [|[n x] m IH]; intros H; simpl; constructor. apply H. now left. apply IH. intros; apply H. now right.
Qed.
Lemma sim_give : forall m vals, length vals = length (all_values (now m)) -> Forall2 sim m (give m vals).
Proof.
  induction m as [|[n x] m IH]; intros vals H; simpl; constructor.
  - unfold all_values in H. simpl in H. rewrite app_length in H. repeat split; simpl; auto. rewrite firstn_length. lia.
  - apply IH. unfold all_values in *. simpl in H. rewrite app_length in H. rewrite skipn_length. lia.
Qed.
Lemma now_give : forall m vals, set_all (now m) vals = now (give m vals).
Proof. induction m as [|[n x] m IH]; intros vals; simpl; auto. now rewrite IH. Qed.
Lemma now_insert n x m : now (minsert n x m) = minsert n (ss_now x) (now m).
Proof.
  induction m as [|[k z] m IH]; simpl; auto. destruct (n <? k)%Z; auto. destruct (n =? k)%Z; auto. simpl. now rewrite IH.
Qed.
Lemma now_erase n m : now (merase n m) = merase n (now m).
Proof. induction m as [|[k z] m IH]; simpl; auto. destruct (n =? k)%Z; auto. simpl. now rewrite IH. Qed.
Lemma Core_change S st m' : Core S st -> Forall2 sim (p_src S) m' -> Core (with_psrc S m') (w_src st (now m')).
Proof.
  intros [A B C D E F G H I J] Q. assert (K := sim_keys _ _ Q). constructor; simpl; auto.
  - unfold sorted in *. now rewrite K.
  - intros n x' Fx. destruct (sim_find _ _ Q n x' Fx) as (x & Fn & S1). destruct (C n x Fn). destruct S1 as (_ & _ & _ & _ & L1 & L2). simpl in *. lia.
  - intros N. rewrite (sim_np _ _ Q). auto.
  - eapply cache_ok_img; [|exact I]. intros n s Fs. rewrite A, mfind_now in Fs. destruct (mfind n (p_src S)) as [x|] eqn:Fx; [|discriminate]. inversion Fs; subst.
    destruct (mfind n m') as [x'|] eqn:Fx'.
    + destruct (sim_find _ _ Q n x' Fx') as (x0 & Fn & S1). rewrite Fx in Fn. inversion Fn; subst x0. exists (ss_now x'). rewrite mfind_now, Fx'. split; auto. destruct S1 as (_ & _ & Hi & _). auto.
    + exfalso. apply mfind_none in Fx'. rewrite K in Fx'. apply Fx'. apply mfind_in in Fx. apply (in_map fst) in Fx. exact Fx.
  - eapply evs_ok_keys; [|exact J]. rewrite A, !mkeys_now. auto.
Qed.

(** ** syncParams *)
Lemma mfind_fold_np (F : Z -> R) k : forall l np, mfind k (fold_left (fun np n => minsert n (F n) np) l np) = if existsb (Z.eqb k) l then Some (F k) else mfind k np.
Proof.
  induction l as [|n l IH]; intros np; simpl; auto. rewrite IH. destruct (existsb (Z.eqb k) l); rewrite ?orb_true_r; auto. rewrite orb_false_r.
  destruct (Z.eqb_spec k n) as [->|]. now rewrite mfind_insert_eq. now rewrite mfind_insert_neq.
Qed.
Lemma sorted_fold_np (F : Z -> R) : forall l np, sorted np -> sorted (fold_left (fun np n => minsert n (F n) np) l np).
Proof. induction l; simpl; auto. intros. apply IHl. now apply sorted_insert. Qed.
Lemma free_names_find k (m : SMap.smap usrc) : sorted m -> existsb (Z.eqb k) (free_names m) = match mfind k m with Some s => us_isfree s | None => false end.
Proof.
  induction m as [|[n s] m IH]; intros Sm; simpl; auto. apply sorted_cons in Sm as [Sm Fo].
  unfold free_names in *. simpl. destruct (Z.eqb_spec k n) as [->|Hk].
  - destruct (us_isfree s) eqn:E; simpl. now rewrite Z.eqb_refl.
    rewrite IH by auto. destruct (mfind n m) eqn:F; auto. apply mfind_in in F. apply (in_map fst) in F. rewrite Forall_forall in Fo. apply Fo in F. simpl in F. lia.
  - destruct (us_isfree s); simpl; auto. destruct (Z.eqb_spec k n); [congruence|]. simpl. auto.
Qed.
Lemma now_sync S : now (p_src (sync S)) = now (p_src S).
Proof.
  unfold sync, now, onto. simpl. rewrite map_map. apply map_ext. intros [n x]. simpl. destruct (us_isfree (ss_now x)); auto.
Qed.
Lemma flat_all m : (forall n s, In (n, s) m -> length (us_par s) = length (us_fr s)) -> map fst (flat_params m) = all_values m.
Proof.
  unfold flat_params, all_values. induction m as [|[n s] m IH]; intros H; simpl; auto. rewrite map_app. f_equal.
  - assert (E : length (us_par s) = length (us_fr s)) by (apply (H n s); now left). revert E. generalize (us_par s) (us_fr s). induction l as [|x l IHl]; intros [|b l'] E; simpl in *; try discriminate; auto. f_equal. auto.
  - apply IH. intros; apply (H n0); now right.
Qed.
Definition lens (m : SMap.smap ssrc) : Prop := forall n x, mfind n m = Some x -> length (us_par (ss_now x)) = npar n /\ length (us_fr (ss_now x)) = npar n.
Lemma lens_flat m : sorted m -> lens m -> map fst (flat_params (now m)) = all_values (now m).
Proof.
  intros Sm L. apply flat_all. intros n s I. apply mfind_In in I; [|now apply sorted_now]. rewrite mfind_now in I. destruct (mfind n m) as [x|] eqn:F; [|discriminate]. inversion I; subst. destruct (L n x F). lia.
Qed.
Lemma np_sync S st : sorted (p_src S) -> u_src st = now (p_src S) -> sorted (u_np st) ->
  (forall n, (match mfind n (p_src S) with Some x => us_isfree (ss_now x) | None => false end) = false -> mfind n (u_np st) = option_map at_npred (mfind n (p_src S))) ->
  uc_new g = true -> u_np (syncParams ph g st) = np_of (p_src (sync S)).
Proof.
  intros Ss Es Sn Hn N. unfold syncParams. rewrite N. simpl. rewrite Es.
  apply sorted_ext.
  - now apply sorted_fold_np.
  - apply sorted_np. apply (sorted_onto (fun _ x => if us_isfree (ss_now x) then refresh x else x)). auto.
  - intros k. rewrite mfind_fold_np, free_names_find by now apply sorted_now. rewrite mfind_np. unfold sync. simpl. unfold onto. rewrite (mfind_onto (fun _ x => if us_isfree (ss_now x) then refresh x else x)).
    unfold npred_in. rewrite mfind_now. specialize (Hn k). destruct (mfind k (p_src S)) as [x|] eqn:F; simpl in *.
    + destruct (us_isfree (ss_now x)); auto. 
    + now apply Hn.
Qed.
Lemma syncParams_fields st : let st' := syncParams ph g st in u_src st' = u_src st /\ u_free st' = free_names (u_src st) /\ u_pv st' = flat_params (u_src st) /\
  u_cache st' = u_cache st /\ u_ev st' = u_ev st /\ u_acc st' = u_acc st /\ u_eb st' = u_eb st /\ u_best st' = u_best st /\ u_bestpar st' = u_bestpar st.
Proof. unfold syncParams. destruct (uc_new g); repeat split. Qed.
Lemma find_sync S n : mfind n (p_src (sync S)) = option_map (fun x => if us_isfree (ss_now x) then refresh x else x) (mfind n (p_src S)).
Proof. apply (mfind_onto (fun _ x => if us_isfree (ss_now x) then refresh x else x)). Qed.
Lemma lens_sync S : lens (p_src S) -> lens (p_src (sync S)).
Proof.
  intros L n x F. rewrite find_sync in F. destruct (mfind n (p_src S)) as [y|] eqn:Fy; [|discriminate]. simpl in F. inversion F. destruct (us_isfree (ss_now y)); apply (L n y Fy).
Qed.
Lemma sorted_sync S : sorted (p_src S) -> sorted (p_src (sync S)).
Proof. apply (sorted_onto (fun _ x => if us_isfree (ss_now x) then refresh x else x)). Qed.
Lemma Pv_sync S st : sorted (p_src S) -> lens (p_src S) -> u_src st = now (p_src S) -> Pv (sync S) (syncParams ph g st).
Proof.
  intros Ss L Es. destruct (syncParams_fields st) as (A & B & C & _). split.
  - rewrite C, Es. change (p_pv (sync S)) with (all_values (now (p_src (sync S)))). rewrite now_sync. now apply lens_flat.
  - reflexivity.
Qed.
Lemma sync_ok S st : Core S st -> Core (sync S) (syncParams ph g st) /\ Pv (sync S) (syncParams ph g st).
Proof.
  intros [A B C D E F G H I J]. split; [|now apply Pv_sync].
  destruct (syncParams_fields st) as (F1 & F2 & F3 & F4 & F5 & F6 & F7 & F8 & F9).
  constructor; try congruence.
  - rewrite F1, A. symmetry. apply now_sync.
  - now apply sorted_sync.
  - now apply lens_sync.
  - rewrite F7. exact D.
  - rewrite F8. exact E.
  - rewrite F9. exact F.
  - intros N. apply np_sync; auto. rewrite H by auto. now apply sorted_np. intros n _. rewrite H by auto. apply mfind_np.
Qed.

(** ** value *)
Lemma fold_minus l : forall a, fold_left (fun a x => (a - x)%R) l a = (a - Rsum l)%R.
Proof. unfold Rsum. induction l as [|x l IH]; intros a; simpl. lra. rewrite IH. lra. Qed.
Lemma evs_part_nil st : evs_ok g (u_src st) (u_ev st) -> evs_part ph g st [] (u_ev st).
Proof. intros H. split; [exact H|]. split. intros k Hk n Hn. reflexivity. intros k n s []. Qed.
Lemma npred_sum S st : Core S st -> Rsum (if uc_new g then map snd (u_np st) else map (fun ns => npred_of ph (snd ns)) (u_src st)) =
  Rsum (map (fun nx => let s := ss_now (snd nx) in if uc_new g then up_npred ph (us_fn s) (us_img s) (snd (ss_at (snd nx))) (fst (ss_at (snd nx))) else up_npred ph (us_fn s) (us_img s) (us_grid s) (us_par s)) (p_src S)).
Proof.
  intros K. f_equal. destruct (uc_new g) eqn:N.
  - rewrite (k_np _ _ K N). unfold np_of. rewrite map_map. reflexivity.
  - rewrite (k_src _ _ K). unfold now. rewrite map_map. reflexivity.
Qed.
Lemma Core_parts S st c evs : Core S st -> cache_ok ph g c (u_src st) -> evs_ok g (u_src st) evs -> Core S (w_ev (w_cache st c) evs).
Proof. intros [A B C D E F G H I J] X Y. constructor; auto. Qed.
Lemma value_ok S st : uc_catch g = false -> Core S st -> Pv S st -> exists st', value ph g st = (st', Ok (spec_value ph g S)) /\
  Core (spec_step ph g S UValue) st' /\ Pv (spec_step ph g S UValue) st' /\ u_free st' = u_free st /\ u_pv st' = u_pv st /\
  (exists js, evs_part ph g st js (u_ev st') /\ (excluded g (p_eb S) = false -> js = filter (in_bounds ph (p_eb S)) (seq 0 nev))).
Proof.
  intros Hc K P. unfold value, spec_value. unfold spec_step. rewrite (k_eb _ _ K). fold (excluded g (p_eb S)).
  destruct (excluded g (p_eb S)) eqn:X.
  - exists st. simpl. repeat (split; [first [reflexivity|exact K|exact P]|]). exists []. split; [|discriminate]. apply evs_part_nil, K.
  - destruct (data_sum_ok ph g st Hc) with (js := seq 0 nev) (done := @nil nat) (st := st) as (c' & evs' & A & B & D).
    + rewrite (k_src _ _ K). apply sorted_now, K.
    + simpl. apply Forall_forall. intros x I. apply in_seq in I. lia.
    + simpl. apply evs_part_nil, K.
    + apply K.
    + now destruct st.
    + rewrite A. cbn [ubind]. rewrite (k_acc _ _ K), Rplus_0_l, fold_minus.
      assert (V : (u_acc (w_acc (w_ev (w_cache st c') evs') (Rsum (map (log_density ph (u_src st)) (filter (in_bounds ph (u_eb st)) (seq 0 nev))))) -
         Rsum (if uc_new g then map snd (u_np (w_acc (w_ev (w_cache st c') evs') (Rsum (map (log_density ph (u_src st)) (filter (in_bounds ph (u_eb st)) (seq 0 nev)))))) else
               map (fun ns => npred_of ph (snd ns)) (u_src (w_acc (w_ev (w_cache st c') evs') (Rsum (map (log_density ph (u_src st)) (filter (in_bounds ph (u_eb st)) (seq 0 nev))))))))%R = spec_value ph g S).
      { unfold spec_value. rewrite X. unfold data_part. rewrite <- (k_src _ _ K), <- (k_eb _ _ K). pose proof (npred_sum S st K) as NS. cbv zeta in NS |- *. simpl u_acc. simpl u_np. simpl u_src. unfold Rminus. f_equal. f_equal. exact NS. }
      rewrite V. clear V. eexists. split; [simpl; unfold spec_value; rewrite X; reflexivity|].
      assert (K' : Core S (w_acc (w_ev (w_cache st c') evs') 0%R)).
      { pose proof (Core_parts S st c' evs' K B (proj1 D)) as Kp. destruct Kp. constructor; auto. }
      simpl. unfold spec_value in *. rewrite X. simpl negb. cbn [andb].
      fold (spec_value ph g S). set (v := (data_part ph g (now (p_src S)) (p_eb S) - _)%R).
      unfold saveBestFit. simpl. rewrite (k_best _ _ K).
      destruct (Rltb (p_best S) v); simpl.
      * split; [|split; [|split; [reflexivity|split; [reflexivity|]]]].
        -- destruct K'. constructor; simpl in *; auto. apply P.
        -- exact P.
        -- exists (filter (in_bounds ph (u_eb st)) (seq 0 nev)). split; [exact D|]. intros _. now rewrite (k_eb _ _ K).
      * split; [exact K'|split; [exact P|split; [reflexivity|split; [reflexivity|]]]].
        exists (filter (in_bounds ph (u_eb st)) (seq 0 nev)). split; [exact D|]. intros _. now rewrite (k_eb _ _ K).
Qed.

(** ** The gradient *)
Definition dlog (srcs : SMap.smap usrc) (j : nat) (nsi : Z * usrc * nat) : R :=
  let '(n, s, i) := nsi in (dflux_of ph n s j i * up_eff ph j / exp (log_density ph srcs j))%R.
Lemma derivs_at_ok srcSum j : j < nev -> forall l st acc, cache_ok ph g (u_cache st) (u_src st) -> (forall n s i, In (n, s, i) l -> mfind n (u_src st) = Some s) ->
  exists c', derivs_at ph st j l srcSum acc = (w_cache st c', Ok (acc ++ map (fun nsi => let '(n, s, i) := nsi in (dflux_of ph n s j i * up_eff ph j / srcSum)%R) l)) /\ cache_ok ph g c' (u_src st).
Proof.
  intros Hj. induction l as [|[[n s] i] l IH]; intros st acc C H; cbn [derivs_at].
  - exists (u_cache st). simpl. rewrite app_nil_r. split; auto. now destruct st.
  - destruct (cached_deriv_ok ph g st j n s i C) as (c1 & A & B); auto. apply (H n s i). now left.
    rewrite A. cbn [ubind].
    destruct (IH (w_cache st c1) (acc ++ [(dflux_of ph n s j i * up_eff ph j / srcSum)%R])) as (c' & E & F); auto.
    + intros n' s' i' I. apply (H n' s' i'). now right.
    + exists c'. rewrite E. split; [|exact F]. rewrite <- app_assoc. reflexivity.
Qed.
Lemma free_list_in m n s i : In (n, s, i) (free_list m) -> In (n, s) m.
Proof.
  unfold free_list. intros H. apply in_flat_map in H as ([n' s'] & I & J). apply in_map_iff in J as (k & E & _). simpl in E. inversion E; subst. exact I.
Qed.
Lemma getLog_ok st j : uc_catch g = false -> j < nev -> sorted (u_src st) -> evs_ok g (u_src st) (u_ev st) -> cache_ok ph g (u_cache st) (u_src st) ->
  exists c' evs', getLogSourceModelDerivs ph g st j = (w_ev (w_cache st c') evs', Ok (map (dlog (u_src st) j) (free_list (u_src st)))) /\ cache_ok ph g c' (u_src st) /\ ev_part ph g st j (u_src st) evs'.
Proof.
  intros Hc Hj Ss EV C. unfold getLogSourceModelDerivs. destruct (logSourceModel_ok ph g st j Hc Hj Ss EV C) as (c1 & e1 & A & B & D). rewrite A. cbn [ubind].
  destruct (derivs_at_ok (exp (log_density ph (u_src st) j)) j Hj (free_list (u_src (w_ev (w_cache st c1) e1))) (w_ev (w_cache st c1) e1) []) as (c2 & E & F).
  - exact B.
  - intros n s i I. apply free_list_in in I. now apply sorted_In.
  - exists c2, e1. rewrite E. split; auto.
Qed.
Lemma add_in_ok : forall d v, length d <= length v -> exists v', add_in v d = Ok v' /\ length v' = length v /\ forall k, k < length d -> nth k v' 0%R = (nth k v 0 + nth k d 0)%R.
Proof.
  induction d as [|x d IH]; intros v H; simpl in *.
  - exists v. split. destruct v; auto. split; auto. intros; lia.
  - destruct v as [|y v]; [simpl in H; lia|]. simpl in H. destruct (IH v) as (v' & A & B & C); [lia|]. cbn [add_in]. rewrite A. exists ((y + x)%R :: v'). split; auto. split; [simpl; lia|].
    intros [|k] Hk; simpl; auto. apply C. lia.
Qed.
Lemma grad_sum_ok st0 : uc_catch g = false -> sorted (u_src st0) -> forall js st v,
  Forall (fun k => k < nev) js -> evs_part ph g st0 [] (u_ev st) -> cache_ok ph g (u_cache st) (u_src st0) -> st = w_ev (w_cache st0 (u_cache st)) (u_ev st) ->
  exists c' evs' o, grad_sum ph g st js v = (w_ev (w_cache st0 c') evs', o) /\ cache_ok ph g c' (u_src st0) /\ evs_part ph g st0 [] evs' /\
  (length (free_list (u_src st0)) <= length v -> exists v', o = Ok v' /\ length v' = length v /\
    forall k nsi, nth_error (free_list (u_src st0)) k = Some nsi -> nth k v' 0%R = (nth k v 0 + Rsum (map (fun j => dlog (u_src st0) j nsi) (filter (in_bounds ph (u_eb st0)) js)))%R).
Proof.
  intros Hc Ss. induction js as [|j js IH]; intros st v Hjs EP C Est; cbn [grad_sum].
  - exists (u_cache st), (u_ev st), (Ok v). split; [now rewrite Est at 1|]. split; auto. split; auto. intros _. exists v. split; auto. split; auto. intros. unfold Rsum. simpl. lra.
  - inversion Hjs as [|? ? Hj Hjs']; subst x l.
    assert (Sel : selected ph st j = in_bounds ph (u_eb st0) j). { rewrite Est. reflexivity. }
    rewrite Sel. simpl filter. destruct (in_bounds ph (u_eb st0) j) eqn:Eb.
    + assert (Es : u_src st = u_src st0) by (rewrite Est; reflexivity). assert (Ef : u_free st = u_free st0) by (rewrite Est; reflexivity).
      destruct (getLog_ok st j Hc Hj) as (c1 & e1 & A & B & D). rewrite Es; auto. rewrite Es; apply EP. rewrite Es; auto.
      rewrite A. cbn [ubind]. rewrite Es in *.
      assert (EP1 : evs_part ph g st0 [] e1).
      { destruct D as (Q1 & Q2 & Q3 & Q4). destruct EP as (P1 & P2 & P3). rewrite Es in Q1. rewrite Ef in Q2. split; [exact Q1|]. split. intros k Hk n Hn. rewrite Q2 by auto. now apply P2. intros k n s []. }
      destruct (add_in v (map (dlog (u_src st0) j) (free_list (u_src st0)))) as [v1| |] eqn:Ea.
      * destruct (IH (w_ev (w_cache st c1) e1) v1 Hjs' EP1 B) as (c' & evs' & o & Er & Cr & EPr & Hr). { rewrite Est. reflexivity. }
        exists c', evs', o. rewrite Er. split; auto. split; auto. split; auto. intros L.
        destruct (add_in_ok (map (dlog (u_src st0) j) (free_list (u_src st0))) v) as (v1' & A1 & A2 & A3). { rewrite map_length. auto. }
        rewrite Ea in A1. inversion A1; subst v1'. destruct Hr as (v' & Ho & Hl & Hv). lia. exists v'. split; auto. split; [lia|].
        intros k nsi Hk. rewrite (Hv k nsi Hk). rewrite A3. 2: { rewrite map_length. apply nth_error_Some. congruence. }
        rewrite (nth_error_nth (map (dlog (u_src st0) j) (free_list (u_src st0))) k 0%R (map_nth_error _ _ _ Hk)). unfold Rsum. simpl. lra.
      * exists c1, e1, Throw. split; [rewrite Est; reflexivity|]. split; auto. split; auto. intros L.
        destruct (add_in_ok (map (dlog (u_src st0) j) (free_list (u_src st0))) v) as (v1' & A1 & A2 & A3). { rewrite map_length. auto. } congruence.
      * exists c1, e1, UB. split; [rewrite Est; reflexivity|]. split; auto. split; auto. intros L.
        destruct (add_in_ok (map (dlog (u_src st0) j) (free_list (u_src st0))) v) as (v1' & A1 & A2 & A3). { rewrite map_length. auto. } congruence.
    + apply IH; auto.
Qed.
Lemma gradient_ok S st : uc_catch g = false -> Core S st -> Pv S st -> exists st' o, getFreeDerivs ph g st = (st', o) /\ Core S st' /\ Pv S st' /\ u_free st' = u_free st /\ u_pv st' = u_pv st /\
  evs_part ph g st [] (u_ev st') /\
  (num_free st = length (free_list (u_src st)) -> length (all_npred_derivs ph g st) = length (free_list (u_src st)) ->
   exists d, o = Ok d /\ length d = length (free_list (u_src st)) /\ forall k nsi, nth_error (free_list (u_src st)) k = Some nsi ->
     nth k d 0%R = (Rsum (map (fun j => dlog (u_src st) j nsi) (filter (in_bounds ph (u_eb st)) (seq 0 nev))) - nth k (all_npred_derivs ph g st) 0)%R).
Proof.
  intros Hc K P. unfold getFreeDerivs.
  destruct (grad_sum_ok st Hc) with (js := seq 0 nev) (st := st) (v := repeat 0%R (num_free st)) as (c' & evs' & o & A & B & D & H).
  - rewrite (k_src _ _ K). apply sorted_now, K.
  - apply Forall_forall. intros x I. apply in_seq in I. lia.
  - apply evs_part_nil, K.
  - apply K.
  - now destruct st.
  - rewrite A. rewrite repeat_length in H.
    assert (K' : Core S (w_ev (w_cache st c') evs')) by (apply Core_parts; auto; apply D).
    destruct o as [v| |]; cbn [ubind].
    + set (d := all_npred_derivs ph g (w_ev (w_cache st c') evs')).
      assert (Ed : d = all_npred_derivs ph g st) by reflexivity. rewrite Ed. clear d Ed.
      destruct (Nat.ltb_spec (length v) (length (all_npred_derivs ph g st))).
      * exists (w_ev (w_cache st c') evs'), Throw. split; auto. split; auto. split; auto. split; auto. split; auto. split; auto. intros Hn Hd. destruct H as (v' & E & L & _). lia. inversion E; subst. lia.
      * eexists _, _. split; [reflexivity|]. split; [exact K'|]. split; [exact P|]. split; [reflexivity|]. split; [reflexivity|]. split; [exact D|].
        intros Hn Hd. destruct H as (v' & E & L & Hv). lia. inversion E; subst v'. eexists. split; [reflexivity|]. split.
        -- rewrite map_length, combine_length. lia.
        -- intros k nsi Hk. assert (Hlt : k < length (free_list (u_src st))) by (apply nth_error_Some; congruence).
           set (f := fun xy : R * R => (fst xy - snd xy)%R). rewrite (nth_indep _ 0%R (f (0, 0)%R)) by (rewrite map_length, combine_length; lia).
           rewrite map_nth, combine_nth by lia. unfold f. simpl fst. simpl snd. rewrite (Hv k nsi Hk). rewrite nth_repeat0. lra.
    + eexists _, _. split; [reflexivity|]. split; [exact K'|]. split; [exact P|]. split; [reflexivity|]. split; [reflexivity|]. split; [exact D|].
      intros Hn Hd. destruct H as (v' & E & L & Hv). lia. discriminate.
    + eexists _, _. split; [reflexivity|]. split; [exact K'|]. split; [exact P|]. split; [reflexivity|]. split; [reflexivity|]. split; [exact D|].
      intros Hn Hd. destruct H as (v' & E & L & Hv). lia. discriminate.
Qed.
End Runs.

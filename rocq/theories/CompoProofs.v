(** Proofs about composite sources. *)
From Coq Require Import Reals Lra ZArith String.
From Verif Require Import Base SMap AccumModel AccumProofs CompoModel CompoSpec.
Open Scope string_scope.
Open Scope list_scope.

(** ** Densities *)
Open Scope R_scope.
Lemma kahan_R (k : kahan) v : k_c k = 0 -> k_sum (kahan_add Rplus Rminus k v) = k_sum k + v /\ k_c (kahan_add Rplus Rminus k v) = 0.
Proof. intros H. unfold kahan_add. cbn [k_sum k_c]. rewrite H. split; ring. Qed.

Definition dens_step := (fun (kc : kahan * cached) m =>
  let (v, c') := fluxDensity1 m (snd kc) in (kahan_add Rplus Rminus (fst kc) v, c')).

Lemma density_none ms : forall k, k_c k = 0 ->
  k_sum (fst (fold_left dens_step ms (k, None))) = k_sum k + total_density ms /\ snd (fold_left dens_step ms (k, None)) = None.
Proof.
  induction ms as [|m ms IH]; intros k Hk; cbn [fold_left total_density fold_right].
  - split; [cbn; lra|reflexivity].
  - assert (E : dens_step (k, None) m = (kahan_add Rplus Rminus k (mb_spec m * mb_resp m), None)).
    { unfold dens_step, fluxDensity1, response. cbn [snd fst]. destruct (mb_point m); reflexivity. }
    rewrite E. destruct (kahan_R k (mb_spec m * mb_resp m) Hk) as (E1 & E2). destruct (IH _ E2) as (F1 & F2).
    rewrite F1, F2, E1. fold (total_density ms). split; [lra|reflexivity].
Qed.

(** With a filled cache every point source uses it. *)
Definition cached_density (r : R) (ms : list member) : R :=
  fold_right (fun m a => mb_spec m * (if mb_point m then r else mb_resp m) + a) 0 ms.
Lemma density_full r ms : forall k, k_c k = 0 ->
  k_sum (fst (fold_left dens_step ms (k, Some (true, r)))) = k_sum k + cached_density r ms /\
  snd (fold_left dens_step ms (k, Some (true, r))) = Some (true, r).
Proof.
  induction ms as [|m ms IH]; intros k Hk; cbn [fold_left cached_density fold_right].
  - split; [cbn; lra|reflexivity].
  - assert (E : dens_step (k, Some (true, r)) m = (kahan_add Rplus Rminus k (mb_spec m * (if mb_point m then r else mb_resp m)), Some (true, r))).
    { unfold dens_step, fluxDensity1, response. cbn [snd fst]. destruct (mb_point m); reflexivity. }
    rewrite E. destruct (kahan_R k (mb_spec m * (if mb_point m then r else mb_resp m)) Hk) as (E1 & E2). destruct (IH _ E2) as (F1 & F2).
    rewrite F1, F2, E1. fold (cached_density r ms). split; [lra|reflexivity].
Qed.
Lemma density_empty r0 ms : forall k, k_c k = 0 ->
  k_sum (fst (fold_left dens_step ms (k, Some (false, r0)))) =
  k_sum k + match find mb_point ms with Some m => cached_density (mb_resp m) ms | None => total_density ms end.
Proof.
  induction ms as [|m ms IH]; intros k Hk; cbn [fold_left find].
  - cbn. lra.
  - destruct (mb_point m) eqn:Em.
    + assert (E : dens_step (k, Some (false, r0)) m = (kahan_add Rplus Rminus k (mb_spec m * mb_resp m), Some (true, mb_resp m))).
      { unfold dens_step, fluxDensity1, response. cbn [snd fst]. rewrite Em. reflexivity. }
      rewrite E. destruct (kahan_R k (mb_spec m * mb_resp m) Hk) as (E1 & E2). destruct (density_full (mb_resp m) ms _ E2) as (F1 & _).
      rewrite F1, E1. cbn [cached_density fold_right]. rewrite Em. fold (cached_density (mb_resp m) ms). lra.
    + assert (E : dens_step (k, Some (false, r0)) m = (kahan_add Rplus Rminus k (mb_spec m * mb_resp m), Some (false, r0))).
      { unfold dens_step, fluxDensity1, response. cbn [snd fst]. rewrite Em. reflexivity. }
      rewrite E. destruct (kahan_R k (mb_spec m * mb_resp m) Hk) as (E1 & E2). rewrite (IH _ E2), E1.
      destruct (find mb_point ms); cbn [cached_density total_density fold_right]; try rewrite Em;
        [fold (cached_density (mb_resp m0) ms)|fold (total_density ms)]; lra.
Qed.
Lemma fluxDensity_eq s ms c : fst (fluxDensity s ms c) = k_sum (fst (fold_left dens_step ms (kahan_init 0, c))) * s.
Proof. unfold fluxDensity. fold dens_step. destruct (fold_left dens_step ms (kahan_init 0, c)) as (k, c'). reflexivity. Qed.
Lemma fluxDensity_cache s ms c : snd (fluxDensity s ms c) = snd (fold_left dens_step ms (kahan_init 0, c)).
Proof. unfold fluxDensity. fold dens_step. destruct (fold_left dens_step ms (kahan_init 0, c)) as (k, c'). reflexivity. Qed.

(** The derivative without a cache: the sum of the members' derivatives. *)
Fixpoint sum_derivs (ms : list member) (p : string) : outcome R :=
  match ms with
  | [] => Ok 0
  | m :: ms' => obind (fluxDensityDeriv1 m p None) (fun v => obind (sum_derivs ms' p) (fun a => Ok (fst v + a)))
  end.
Lemma deriv1_none m p : fluxDensityDeriv1 m p None = Throw \/ exists v, fluxDensityDeriv1 m p None = Ok (v, None).
Proof.
  unfold fluxDensityDeriv1, fluxDensity1, response.
  destruct (String.eqb p "Prefactor"), (mb_prefactor m), (mb_deriv m p), (mb_point m); eauto; destruct (Reqb r 0); eauto.
Qed.
Lemma derivs_none s ms p : fluxDensityDeriv s ms p None = obind (sum_derivs ms p) (fun v => Ok (v * s, None)).
Proof.
  unfold fluxDensityDeriv.
  match goal with |- context [mfold ?f ms _] => set (step := f) end.
  assert (K : forall ms kp kn, k_c kp = 0 -> k_c kn = 0 ->
    (sum_derivs ms p = Throw /\ mfold step ms ((kp, kn), None) = Throw) \/
    exists v kp' kn', sum_derivs ms p = Ok v /\ mfold step ms ((kp, kn), None) = Ok ((kp', kn'), None) /\
      k_sum kp' - k_sum kn' = k_sum kp - k_sum kn + v).
  { clear ms. induction ms as [|m ms IH]; intros kp kn Hp Hn.
    - right. exists 0, kp, kn. cbn. repeat split. ring.
    - cbn [mfold sum_derivs]. unfold step at 1. cbn [snd fst]. unfold step at 2. cbn [snd fst].
      destruct (deriv1_none m p) as [E|(v & E)]; rewrite E; cbn [obind fst]; [left; auto|].
      destruct (Rltb_spec 0 v) as [L|L].
      + destruct (kahan_R kp v Hp) as (E1 & E2). destruct (IH (kahan_add Rplus Rminus kp v) kn E2 Hn) as [(F & G)|(w & kp' & kn' & F & G & H)]; rewrite F; cbn [obind].
        * left. auto.
        * right. exists (v + w), kp', kn'. split; [reflexivity|]. split; [exact G|]. rewrite H, E1. ring.
      + destruct (kahan_R kn (- v) Hn) as (E1 & E2). destruct (IH kp (kahan_add Rplus Rminus kn (- v)) Hp E2) as [(F & G)|(w & kp' & kn' & F & G & H)]; rewrite F; cbn [obind].
        * left. auto.
        * right. exists (v + w), kp', kn'. split; [reflexivity|]. split; [exact G|]. rewrite H, E1. ring. }
  destruct (K ms (kahan_init 0) (kahan_init 0) eq_refl eq_refl) as [(E & F)|(v & kp & kn & E & F & G)]; rewrite E, F; cbn [obind]; [reflexivity|].
  rewrite G. cbn. do 3 f_equal. ring.
Qed.

(** ** Moving sources *)
Open Scope Z_scope.
Section Maps.
Context {A : Type} (build : source A -> A) (binned single_fixed : bool).
Notation consistent := (consistent binned single_fixed).

Lemma erase_first_in n l x : NoDup l -> (In x (erase_first n l) <-> In x l /\ x <> n).
Proof.
  induction l as [|y l IH]; intros H; cbn [erase_first]; [cbn; tauto|]. inversion H; subst.
  destruct (Z.eqb_spec y n) as [->|Hy]; cbn [In].
  - split; [intros Hx; split; [now right|intros ->; contradiction]|intros [[E|E] Hn]; [congruence|exact E]].
  - rewrite IH by auto. split; [intros [<-|(Hx & Hn)]; auto|intros [[E|E] Hn]; auto].
Qed.
Lemma erase_first_nodup n l : NoDup l -> NoDup (erase_first n l).
Proof.
  induction l as [|y l IH]; intros H; cbn [erase_first]; auto. inversion H; subst. destruct (Z.eqb_spec y n); auto.
  constructor; auto. intros Hi. apply erase_first_in in Hi as (Hi & _); auto.
Qed.
Lemma existsb_in n l : existsb (Z.eqb n) l = true <-> In n l.
Proof.
  rewrite existsb_exists. split; [intros (x & Hx & E); apply Z.eqb_eq in E; congruence|intros H; exists n; split; [exact H|apply Z.eqb_refl]].
Qed.
Lemma nodup_snoc (l : list Z) x : NoDup l -> ~ In x l -> NoDup (l ++ [x]).
Proof.
  intros H Hx. apply NoDup_rev in H. rewrite <- (rev_involutive (l ++ [x])). apply NoDup_rev. rewrite rev_app_distr. cbn.
  constructor; auto. now rewrite <- in_rev.
Qed.
Lemma get_map_there (maps : smap A) s : mfind (s_name s) maps <> None -> get_map build maps s = maps.
Proof. unfold get_map. destruct (mfind (s_name s) maps); congruence. Qed.
Lemma get_map_neq (maps : smap A) s x : x <> s_name s -> mfind x (get_map build maps s) = mfind x maps.
Proof. intros H. unfold get_map. destruct (mfind (s_name s) maps); auto. now apply mfind_insert_neq. Qed.
Lemma get_map_eq (maps : smap A) s : mfind (s_name s) (get_map build maps s) = Some (match mfind (s_name s) maps with Some a => a | None => build s end).
Proof. unfold get_map. destruct (mfind (s_name s) maps) eqn:E; [exact E|apply mfind_insert_eq]. Qed.
Lemma get_map_sorted (maps : smap A) s : sorted maps -> sorted (get_map build maps s).
Proof. intros H. unfold get_map. destruct (mfind (s_name s) maps); auto. now apply sorted_insert. Qed.

(** Deleting a source. *)
Lemma delete_ok m n s : consistent m -> mfind n (m_src m) = Some s ->
  exists maps f, deleteSource build m n = (mk_model (merase n (m_src m)) maps f, inl s) /\
    (forall x, x <> n \/ mfind n (m_maps m) <> None -> mfind x maps = mfind x (m_maps m)) /\
    consistent (mk_model (merase n (m_src m)) maps f).
Proof.
  intros Hc Hs. pose proof (co_name _ _ _ Hc _ _ Hs) as Hn. unfold deleteSource.
  assert (Hfix : forall f, (forall x, In x f <-> In x (m_fixed m) /\ x <> n) -> forall x, In x f <->
            exists s0, mfind x (merase n (m_src m)) = Some s0 /\ binned && single_fixed && s_fixed s0 = true).
  { intros f Hf x. rewrite Hf. destruct (Z.eq_dec x n) as [->|Hx].
    - rewrite mfind_erase_eq by apply Hc. split; [tauto|intros (? & ? & _); discriminate].
    - rewrite mfind_erase_neq by auto. rewrite (co_fixed _ _ _ Hc). tauto. }
  destruct (existsb (Z.eqb n) (m_fixed m)) eqn:Ef.
  - rewrite Hs. cbn [m_src m_maps m_fixed]. rewrite Hs. eexists _, _. split; [reflexivity|]. split.
    + intros x [Hx|Hx]; [now apply get_map_neq; rewrite Hn|]. rewrite get_map_there; auto. now rewrite Hn.
    + constructor; cbn [m_src m_maps m_fixed].
      * apply sorted_erase, Hc.
      * apply get_map_sorted, Hc.
      * intros x s0 E. destruct (Z.eq_dec x n) as [->|Hx]; [rewrite mfind_erase_eq in E by apply Hc; discriminate|].
        rewrite mfind_erase_neq in E by auto. eapply co_name; eauto.
      * apply erase_first_nodup, Hc.
      * apply Hfix. intros x. apply erase_first_in, Hc.
  - rewrite Hs. eexists _, _. split; [reflexivity|]. split; [auto|].
    assert (Hni : ~ In n (m_fixed m)) by (rewrite <- existsb_in, Ef; discriminate).
    constructor; cbn [m_src m_maps m_fixed].
    + apply sorted_erase, Hc.
    + apply Hc.
    + intros x s0 E. destruct (Z.eq_dec x n) as [->|Hx]; [rewrite mfind_erase_eq in E by apply Hc; discriminate|].
      rewrite mfind_erase_neq in E by auto. eapply co_name; eauto.
    + apply Hc.
    + apply Hfix. intros x. split; [intros H; split; [exact H|intros ->; contradiction]|tauto].
Qed.

(** Adding a source. *)
Lemma add_ok m s o : consistent m -> mfind (s_name s) (m_src m) = None ->
  exists maps f, addSource build binned single_fixed m s o = (mk_model (minsert (s_name s) s (m_src m)) maps f, None) /\
    consistent (mk_model (minsert (s_name s) s (m_src m)) maps f) /\
    (forall x, x <> s_name s \/ binned = false -> mfind x maps = mfind x (m_maps m)) /\
    (binned = true -> mfind (s_name s) maps =
       Some (match (if single_fixed && s_fixed s then None else o) with
             | Some a => a
             | None => match mfind (s_name s) (m_maps m) with Some a => a | None => build s end
             end)).
Proof.
  intros Hc Hs. unfold addSource. rewrite Hs.
  assert (Hnf : ~ In (s_name s) (m_fixed m)).
  { intros H. apply (co_fixed _ _ _ Hc) in H as (s0 & E & _). congruence. }
  assert (Hnames : forall n s0, mfind n (minsert (s_name s) s (m_src m)) = Some s0 -> s_name s0 = n).
  { intros n s0 E. destruct (Z.eq_dec n (s_name s)) as [->|Hx]; [rewrite mfind_insert_eq in E; congruence|].
    rewrite mfind_insert_neq in E by auto. eapply co_name; eauto. }
  assert (Hfix : binned && single_fixed && s_fixed s = false -> forall n, In n (m_fixed m) <->
     exists s0, mfind n (minsert (s_name s) s (m_src m)) = Some s0 /\ binned && single_fixed && s_fixed s0 = true).
  { intros Hb n. destruct (Z.eq_dec n (s_name s)) as [->|Hx].
    - rewrite mfind_insert_eq. split; [tauto|]. intros (s0 & E & F). injection E as <-. congruence.
    - rewrite mfind_insert_neq by auto. apply (co_fixed _ _ _ Hc). }
  destruct binned; cbn [negb andb] in *.
  - destruct (single_fixed && s_fixed s) eqn:Ef.
    + destruct (existsb (Z.eqb (s_name s)) (m_fixed m)) eqn:Ee; [apply existsb_in in Ee; contradiction|].
      eexists _, _. split; [reflexivity|]. split; [|split].
      * constructor; cbn [m_src m_maps m_fixed]; auto.
        -- apply sorted_insert, Hc.
        -- apply get_map_sorted, Hc.
        -- apply nodup_snoc; [apply Hc|exact Hnf].
        -- intros n. rewrite in_app_iff. cbn [In]. destruct (Z.eq_dec n (s_name s)) as [->|Hx].
           ++ rewrite mfind_insert_eq. split; [intros _; exists s; auto|auto].
           ++ rewrite mfind_insert_neq by auto. rewrite (co_fixed _ _ _ Hc). split; [intros [H|[H|[]]]; [exact H|congruence]|auto].
      * intros x [Hx|Hx]; [now apply get_map_neq|discriminate].
      * intros _. apply get_map_eq.
    + specialize (Hfix eq_refl). destruct o as [a|]; eexists _, _; (split; [reflexivity|]); (split; [|split]).
      * constructor; cbn [m_src m_maps m_fixed]; auto; try apply Hc; [apply sorted_insert, Hc|apply sorted_insert, sorted_erase, Hc].
      * intros x [Hx|Hx]; [|discriminate]. rewrite mfind_insert_neq by auto. now apply mfind_erase_neq.
      * intros _. now rewrite mfind_insert_eq.
      * constructor; cbn [m_src m_maps m_fixed]; auto; try apply Hc; [apply sorted_insert, Hc|apply get_map_sorted, Hc].
      * intros x [Hx|Hx]; [|discriminate]. now apply get_map_neq.
      * intros _. apply get_map_eq.
  - specialize (Hfix eq_refl). eexists _, _. split; [reflexivity|]. split; [|split].
    + constructor; cbn [m_src m_maps m_fixed]; auto; try apply Hc; try (now apply Hfix); apply sorted_insert, Hc.
    + auto.
    + discriminate.
Qed.

Lemma in_app_dec {V} (x : Z) (l : list Z) n (a b : V) :
  (if in_dec Z.eq_dec x (l ++ [n]) then a else b) = if Z.eq_dec x n then a else if in_dec Z.eq_dec x l then a else b.
Proof.
  destruct (in_dec Z.eq_dec x (l ++ [n])) as [H|H]; destruct (Z.eq_dec x n) as [E|E]; auto; destruct (in_dec Z.eq_dec x l) as [I|I]; auto.
  - exfalso. apply in_app_iff in H as [H|[H|[]]]; [contradiction|congruence].
  - exfalso. apply H. apply in_app_iff. right. now left.
  - exfalso. apply H. apply in_app_iff. right. now left.
  - exfalso. apply H. apply in_app_iff. now left.
Qed.

(** Stealing sources one after the other. *)
Lemma steal_all_ok m0 ns : forall done c m, NoDup (done ++ ns) -> consistent m ->
  (forall n, In n ns -> mfind n (m_src m0) <> None /\ loaded binned m0 n) ->
  restricted done (m_src m0) (fst c) -> without done (m_src m0) (m_src m) -> sorted (fst c) ->
  (if binned then exists k, snd c = Some k /\ sorted k /\ restricted done (m_maps m0) k /\ without done (m_maps m0) (m_maps m)
   else snd c = None /\ forall x, mfind x (m_maps m) = mfind x (m_maps m0)) ->
  exists c' m', steal_all build binned c m ns = (c', m', None) /\ consistent m' /\
    restricted (done ++ ns) (m_src m0) (fst c') /\ without (done ++ ns) (m_src m0) (m_src m') /\ sorted (fst c') /\
    (if binned then exists k, snd c' = Some k /\ sorted k /\ restricted (done ++ ns) (m_maps m0) k /\ without (done ++ ns) (m_maps m0) (m_maps m')
     else snd c' = None /\ forall x, mfind x (m_maps m') = mfind x (m_maps m0)).
Proof.
  induction ns as [|n ns IH]; intros done c m Hnd Hc Hns Hsub Hsrc Hso Hm.
  - rewrite app_nil_r. exists c, m. cbn [steal_all]. auto 10.
  - destruct (Hns n (or_introl eq_refl)) as (Hn1 & Hn2). destruct (mfind n (m_src m0)) as [s|] eqn:E0; [|congruence].
    assert (Hni : ~ In n done).
    { apply NoDup_remove_2 in Hnd. intros H. apply Hnd. apply in_app_iff. now left. }
    assert (Es : mfind n (m_src m) = Some s).
    { rewrite (Hsrc n). destruct (in_dec Z.eq_dec n done); [contradiction|exact E0]. }
    pose proof (co_name _ _ _ Hc _ _ Es) as En.
    destruct (delete_ok m n s Hc Es) as (maps & f & Ed & Hmaps & Hc').
    cbn [steal_all]. unfold steal_source. rewrite Ed. cbn [m_src m_maps m_fixed].
    assert (Hfind : mfind (s_name s) (fst c) = None).
    { rewrite (Hsub (s_name s)), En. destruct (in_dec Z.eq_dec n done); [contradiction|reflexivity]. }
    assert (Hsub' : restricted (done ++ [n]) (m_src m0) (minsert (s_name s) s (fst c))).
    { intros x. rewrite in_app_dec. rewrite En. destruct (Z.eq_dec x n) as [-> | Hx]; [rewrite mfind_insert_eq; congruence|].
      rewrite mfind_insert_neq by auto. apply Hsub. }
    assert (Hsrc' : without (done ++ [n]) (m_src m0) (merase n (m_src m))).
    { intros x. rewrite in_app_dec. destruct (Z.eq_dec x n) as [-> | Hx]; [apply mfind_erase_eq, Hc|].
      rewrite mfind_erase_neq by auto. apply Hsrc. }
    assert (Hso' : sorted (minsert (s_name s) s (fst c))) by now apply sorted_insert.
    destruct c as (subs, cache). cbn [fst snd] in *.
    assert (Happ : done ++ n :: ns = (done ++ [n]) ++ ns) by now rewrite <- app_assoc.
    rewrite Happ in Hnd |- *.
    destruct binned eqn:Eb.
    + destruct Hm as (k & -> & Hk & Hk1 & Hk2).
      assert (Em : mfind n (m_maps m) = mfind n (m_maps m0)).
      { rewrite (Hk2 n). destruct (in_dec Z.eq_dec n done); [contradiction|reflexivity]. }
      specialize (Hn2 eq_refl). rewrite <- Em in Hn2.
      assert (Hall : forall x, mfind x maps = mfind x (m_maps m)) by (intros x; apply Hmaps; now right).
      rewrite (Hall n). destruct (mfind n (m_maps m)) as [a|] eqn:Ea; [|congruence].
      unfold comp_addSource. rewrite Hfind. rewrite (Hk1 (s_name s)), En.
      destruct (in_dec Z.eq_dec n done); [contradiction|].
      apply (IH (done ++ [n])); cbn [fst snd m_src m_maps m_fixed]; auto; rewrite ?En in *; auto.
      * constructor; cbn [m_src m_maps m_fixed]; try apply Hc'. apply sorted_erase. apply (co_maps _ _ _ Hc').
      * intros n' Hn'. apply Hns. now right.
      * eexists. split; [reflexivity|]. split; [now apply sorted_insert|]. split.
        -- intros x. rewrite in_app_dec. destruct (Z.eq_dec x n) as [-> | Hx]; [rewrite mfind_insert_eq; congruence|].
           rewrite mfind_insert_neq by auto. apply Hk1.
        -- intros x. rewrite in_app_dec. destruct (Z.eq_dec x n) as [-> | Hx]; [apply mfind_erase_eq; apply (co_maps _ _ _ Hc')|].
           rewrite mfind_erase_neq by auto. rewrite Hall. apply Hk2.
    + destruct Hm as (-> & Hm). unfold comp_addSource. rewrite Hfind.
      apply (IH (done ++ [n])); cbn [fst snd m_src m_maps m_fixed]; auto.
      * intros n' Hn'. apply Hns. now right.
      * split; [reflexivity|]. intros x. rewrite <- Hm. destruct (Z.eq_dec x n) as [-> | Hx]; [|apply Hmaps; now left].
        (* a model that is not binned has no fixed list *)
        clear -Ed Eb Hc. unfold deleteSource in Ed.
        destruct (existsb (Z.eqb n) (m_fixed m)) eqn:Ef.
        -- apply existsb_in in Ef. apply (co_fixed _ _ _ Hc) in Ef as (s0 & _ & F). cbn in F. discriminate.
        -- destruct (mfind n (m_src m)); congruence.
Qed.

(** Giving sources one after the other. *)
Definition given (s : source A) (old : option A) (o : option A) : A :=
  match (if single_fixed && s_fixed s then None else o) with
  | Some a => a
  | None => match old with Some a => a | None => build s end
  end.

Lemma give_all_ok ns : forall c m, NoDup ns -> consistent m -> sorted (fst c) ->
  (forall n s, mfind n (fst c) = Some s -> s_name s = n) ->
  (forall n, In n ns -> mfind n (fst c) <> None /\ mfind n (m_src m) = None) ->
  (if binned then exists k, snd c = Some k /\ sorted k /\ (forall n, In n ns -> mfind n k <> None) else snd c = None) ->
  exists c' m', give_all build binned single_fixed c m ns = (c', m', None) /\ consistent m' /\
    (forall x, mfind x (m_src m') = if in_dec Z.eq_dec x ns then mfind x (fst c) else mfind x (m_src m)) /\
    (forall x, ~ In x ns \/ binned = false -> mfind x (m_maps m') = mfind x (m_maps m)) /\
    (forall x s k, In x ns -> mfind x (fst c) = Some s -> binned = true -> snd c = Some k ->
       mfind x (m_maps m') = Some (given s (mfind x (m_maps m)) (mfind x k))).
Proof.
  induction ns as [|n ns IH]; intros c m Hnd Hc Hso Hnm Hns Hcache.
  - exists c, m. cbn [give_all]. split; [reflexivity|]. split; [exact Hc|]. split; [reflexivity|]. split; [reflexivity|]. intros x s k [].
  - inversion Hnd as [|? ? Hni Hnd']; subst. destruct (Hns n (or_introl eq_refl)) as (H1 & H2).
    destruct c as (subs, cache). cbn [fst snd] in *. destruct (mfind n subs) as [s|] eqn:E; [|congruence].
    pose proof (Hnm _ _ E) as En.
    assert (Hnm' : forall n0 s0, mfind n0 (merase n subs) = Some s0 -> s_name s0 = n0).
    { intros x s0 Ex. destruct (Z.eq_dec x n) as [-> | Hx]; [rewrite mfind_erase_eq in Ex by auto; discriminate|].
      rewrite mfind_erase_neq in Ex by auto. eauto. }
    assert (Go : forall o cache', (if binned then exists k, cache' = Some k /\ sorted k /\ (forall n, In n ns -> mfind n k <> None) else cache' = None) ->
      exists m1, addSource build binned single_fixed m s o = (m1, None) /\
      exists c' m', give_all build binned single_fixed (merase n subs, cache') m1 ns = (c', m', None) /\ consistent m' /\
        (forall x, mfind x (m_src m') = if in_dec Z.eq_dec x (n :: ns) then mfind x subs else mfind x (m_src m)) /\
        (forall x, ~ In x (n :: ns) \/ binned = false -> mfind x (m_maps m') = mfind x (m_maps m)) /\
        (binned = true -> mfind n (m_maps m') = Some (given s (mfind n (m_maps m)) o)) /\
        (forall x s0 k, In x ns -> mfind x subs = Some s0 -> binned = true -> cache' = Some k ->
           mfind x (m_maps m') = Some (given s0 (mfind x (m_maps m)) (mfind x k)))).
    { intros o cache' Hcache'. assert (H2' : mfind (s_name s) (m_src m) = None) by congruence.
      destruct (add_ok m s o Hc H2') as (maps & f & Ea & Hc1 & Hm1 & Hm2). rewrite En in *.
      eexists. split; [exact Ea|].
      destruct (IH (merase n subs, cache') _ Hnd' Hc1) as (c' & m' & Eg & Hc2 & G1 & G2 & G3); cbn [fst snd m_src m_maps m_fixed]; auto.
      - now apply sorted_erase.
      - intros x Hx. assert (x <> n) by (intros ->; contradiction). destruct (Hns x (or_intror Hx)) as (A1 & A2).
        rewrite mfind_erase_neq, mfind_insert_neq by auto. auto.
      - exists c', m'. split; [exact Eg|]. split; [exact Hc2|]. cbn [fst snd m_src m_maps m_fixed] in *. split; [|split; [|split]].
        + intros x. rewrite G1. destruct (in_dec Z.eq_dec x ns) as [I|I]; destruct (in_dec Z.eq_dec x (n :: ns)) as [J|J].
          * apply mfind_erase_neq. intros ->. contradiction.
          * exfalso. apply J. now right.
          * destruct J as [<- | J]; [|contradiction]. rewrite mfind_insert_eq. congruence.
          * apply mfind_insert_neq. intros ->. apply J. now left.
        + intros x Hx. rewrite G2; [apply Hm1; destruct Hx as [Hx|Hx]; [left; intros ->; apply Hx; now left|now right]|].
          destruct Hx as [Hx|Hx]; [left; intros I; apply Hx; now right|now right].
        + intros Hb. rewrite G2 by auto. apply Hm2, Hb.
        + intros x s0 k Hx Ex Hb Ek. assert (x <> n) by (intros ->; contradiction).
          rewrite (G3 x s0 k Hx); auto; [|rewrite mfind_erase_neq by auto; exact Ex]. rewrite Hm1 by auto. reflexivity. }
    cbn [give_all]. unfold give_source. rewrite E. destruct binned eqn:Eb.
    + destruct Hcache as (k & -> & Hk & Hkn). pose proof (Hkn n (or_introl eq_refl)) as Hka.
      destruct (mfind n k) as [a|] eqn:Ea; [|congruence].
      destruct (Go (Some a) (Some (merase n k))) as (m1 & E1 & c' & m' & E2 & Hc2 & G1 & G2 & G3 & G4).
      { eexists. split; [reflexivity|]. split; [now apply sorted_erase|]. intros x Hx.
        rewrite mfind_erase_neq by (intros ->; contradiction). apply Hkn. now right. }
      rewrite E1, E2. exists c', m'. split; [reflexivity|]. split; [exact Hc2|]. split; [exact G1|]. split; [exact G2|].
      intros x s0 k0 [<- | Hx] Ex Hb Ek; injection Ek as <-.
      * rewrite (G3 eq_refl). rewrite Ea. congruence.
      * rewrite (G4 x s0 (merase n k) Hx Ex Hb eq_refl). rewrite mfind_erase_neq by (intros ->; contradiction). reflexivity.
    + subst cache. destruct (Go None None eq_refl) as (m1 & E1 & c' & m' & E2 & Hc2 & G1 & G2 & G3 & G4).
      rewrite E1, E2. exists c', m'. split; [reflexivity|]. split; [exact Hc2|]. split; [exact G1|]. split; [exact G2|].
      intros; discriminate.
Qed.
End Maps.

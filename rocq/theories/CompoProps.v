(** C78/C178: sources made of other sources. *)
From Coq Require Import Reals Lra ZArith String.
From Coquelicot Require Import Coquelicot.
From Verif Require Import Base SMap AccumModel AccumProofs CompoModel CompoSpec CompoProofs.
Open Scope string_scope.
Open Scope list_scope.
Open Scope R_scope.

(** *** Densities *)

(** Without a cached response: the composite's spectrum times the sum over its members. *)
Theorem C78_density :
  forall s ms, fluxDensity s ms None = (s * total_density ms, None).
Proof.
  intros s ms. rewrite (surjective_pairing (fluxDensity s ms None)), fluxDensity_eq, fluxDensity_cache.
  destruct (density_none ms (kahan_init 0) eq_refl) as (E1 & E2). rewrite E1, E2. cbn. f_equal. ring.
Qed.
Print Assumptions C78_density.

(** The same with an empty cache, for at most one point source. *)
Theorem C78_density_one_point :
  forall s before m after r0, (forall x, In x before -> mb_point x = false) -> (forall x, In x after -> mb_point x = false) ->
  fst (fluxDensity s (before ++ m :: after) (Some (false, r0))) = s * total_density (before ++ m :: after).
Proof.
  intros s before m after r0 Hb Ha. rewrite fluxDensity_eq, density_empty by reflexivity.
  assert (F : find mb_point before = None).
  { clear -Hb. induction before as [|x l IH]; [reflexivity|]. cbn. rewrite (Hb x (or_introl eq_refl)). apply IH. intros y Hy. apply Hb. now right. }
  assert (G : forall r l, (forall x, In x l -> mb_point x = false) -> cached_density r l = total_density l).
  { intros r l. induction l as [|x l IH]; intros Hl; [reflexivity|]. cbn. rewrite (Hl x (or_introl eq_refl)).
    fold (cached_density r l) (total_density l). rewrite IH; [reflexivity|]. intros y Hy. apply Hl. now right. }
  assert (H : match find mb_point (before ++ m :: after) with Some m0 => cached_density (mb_resp m0) (before ++ m :: after) | None => total_density (before ++ m :: after) end
            = total_density (before ++ m :: after)).
  { clear -F G Hb Ha. assert (E : find mb_point (before ++ m :: after) = if mb_point m then Some m else find mb_point after).
    { induction before as [|x l IH]; [reflexivity|]. cbn in *. destruct (mb_point x); [discriminate|]. apply IH; auto. }
    rewrite E. destruct (mb_point m) eqn:Em.
    - assert (K : forall l, (forall x, In x l -> mb_point x = false) -> cached_density (mb_resp m) (l ++ m :: after) = total_density (l ++ m :: after)).
      { induction l as [|x l IH]; intros Hl; cbn [app].
        - cbn. rewrite Em. fold (cached_density (mb_resp m) after) (total_density after). now rewrite (G _ after Ha).
        - cbn. rewrite (Hl x (or_introl eq_refl)). fold (cached_density (mb_resp m) (l ++ m :: after)) (total_density (l ++ m :: after)).
          rewrite IH; [reflexivity|]. intros y Hy. apply Hl. now right. }
      now apply K.
    - assert (E2 : find mb_point after = None).
      { clear -Ha. induction after as [|x l IH]; [reflexivity|]. cbn. rewrite (Ha x (or_introl eq_refl)). apply IH. intros y Hy. apply Ha. now right. }
      now rewrite E2. }
  rewrite H. cbn. ring.
Qed.
Print Assumptions C78_density_one_point.

(** With a cache, as an unbinned likelihood passes it: the response of the first point source is used for all of them. *)
Theorem C78_cached_refuted :
  forall s m1 m2 r0, mb_point m1 = true -> mb_point m2 = true ->
  fst (fluxDensity s [m1; m2] (Some (false, r0))) = s * ((mb_spec m1 + mb_spec m2) * mb_resp m1) /\
  (s <> 0 -> mb_spec m2 <> 0 -> mb_resp m1 <> mb_resp m2 ->
   fst (fluxDensity s [m1; m2] (Some (false, r0))) <> s * total_density [m1; m2]).
Proof.
  intros s m1 m2 r0 H1 H2.
  assert (E : fst (fluxDensity s [m1; m2] (Some (false, r0))) = s * ((mb_spec m1 + mb_spec m2) * mb_resp m1)).
  { rewrite fluxDensity_eq, density_empty by reflexivity. cbn. rewrite H1, H2. ring. }
  split; [exact E|]. intros Hs Hm Hr. rewrite E. cbn. intros F. apply Hr.
  apply (Rmult_eq_reg_l (s * mb_spec m2)); [|now apply Rmult_integral_contrapositive_currified].
  assert (F' : s * (mb_spec m2 * mb_resp m1) = s * (mb_spec m2 * mb_resp m2)) by lra. lra.
Qed.
Print Assumptions C78_cached_refuted.
Definition case_member (point : bool) (q r : R) : member := mk_member point q r (Some q) (fun p => if String.eqb p "Prefactor" then Some 1 else None).
Example C78_case_density : let m1 := case_member true 2 1 in let m2 := case_member true 3 0 in
  mb_point m1 = true /\ mb_point m2 = true /\ mb_spec m2 <> 0 /\ mb_resp m1 <> mb_resp m2 /\ total_density [m1; m2] = 2.
Proof. cbn. repeat split; lra. Qed.

(** The derivative by a parameter that its members have, and that the composite's own spectrum does not have. *)
Theorem C78_member_derivative :
  forall s p t0 (fs : list (R -> member)), List.Forall (moves p t0) fs ->
  exists v, fluxDensityDeriv s (map (fun f => f t0) fs) p None = Ok (v, None) /\
    is_derive (fun t => fst (fluxDensity s (map (fun f => f t) fs) None)) t0 v.
Proof.
  intros s p t0 fs H.
  assert (K : exists v, sum_derivs (map (fun f => f t0) fs) p = Ok v /\ is_derive (fun t => total_density (map (fun f => f t) fs)) t0 v).
  { induction H as [|f fs (Hr & (d & Hd & Hder) & Hpre) _ (w & Ew & Hw)].
    - exists 0. split; [reflexivity|]. cbn. apply @is_derive_const.
    - assert (E1 : exists v c, fluxDensityDeriv1 (f t0) p None = Ok (v, c) /\ is_derive (fun t => mb_spec (f t) * mb_resp (f t)) t0 v).
      { assert (D : is_derive (fun t => mb_spec (f t) * mb_resp (f t)) t0 (d * mb_resp (f t0))).
        { apply (is_derive_ext (fun t => mb_spec (f t) * mb_resp (f t0))); [intros t; now rewrite (Hr t)|].
          replace (d * mb_resp (f t0)) with (mb_resp (f t0) * d) by ring.
          apply (is_derive_ext (fun t => mb_resp (f t0) * mb_spec (f t)) (fun t => mb_spec (f t) * mb_resp (f t0))); [intros t; apply Rmult_comm|]. now apply is_derive_scal. }
        unfold fluxDensityDeriv1. rewrite Hd. cbn zeta.
        assert (G : exists v c, (if mb_point (f t0) then let (r, c') := response (f t0) None in Ok (r * d, c') else Ok (d * mb_resp (f t0), None)) = Ok (v, c)
                 /\ is_derive (fun t => mb_spec (f t) * mb_resp (f t)) t0 v).
        { destruct (mb_point (f t0)); cbn [response]; eexists _, _; (split; [reflexivity|]); [replace (mb_resp (f t0) * d) with (d * mb_resp (f t0)) by ring|]; exact D. }
        destruct (String.eqb_spec p "Prefactor") as [Ep|Ep]; [|exact G].
        destruct (Hpre Ep) as (Eq & c & Hc). rewrite Eq. destruct (Reqb_spec t0 0) as [Z|Z]; [exact G|].
        assert (Ed : d = c).
        { assert (D2 : is_derive (fun t => mb_spec (f t)) t0 c).
          { apply (is_derive_ext (fun t => t * c)); [intros t; now rewrite Hc|]. auto_derive; [trivial|ring]. }
          now rewrite <- (is_derive_unique _ _ _ Hder), <- (is_derive_unique _ _ _ D2). }
        assert (Ev : mb_spec (f t0) * mb_resp (f t0) / t0 = d * mb_resp (f t0)) by (rewrite Hc, Ed; field; exact Z).
        unfold fluxDensity1. destruct (mb_point (f t0)); cbn [response]; eexists _, _; (split; [reflexivity|]); rewrite Ev; exact D. }
      destruct E1 as (v & c & E1 & D1). cbn [map sum_derivs]. rewrite E1, Ew. cbn [obind fst]. exists (v + w). split; [reflexivity|].
      cbn [total_density fold_right]. apply (is_derive_plus (fun t => mb_spec (f t) * mb_resp (f t)) (fun t => total_density (map (fun f => f t) fs))); assumption. }
  destruct K as (v & Ev & D). rewrite derivs_none, Ev. cbn [obind]. exists (v * s). split; [reflexivity|].
  apply (is_derive_ext (fun t => s * total_density (map (fun f => f t) fs))); [intros t; now rewrite C78_density|].
  replace (v * s) with (s * v) by ring. now apply is_derive_scal.
Qed.
Print Assumptions C78_member_derivative.
Example C78_case_moves : moves "Prefactor" 2 (fun t => case_member true t 7).
Proof.
  split; [reflexivity|]. split.
  - exists 1. split; [reflexivity|]. cbn. apply @is_derive_id.
  - intros _. split; [reflexivity|]. exists 1. intros t. cbn. ring.
Qed.

(** The derivative by the composite's own normalisation is not the derivative: the members' one is given instead, and an
    exception if a member has no parameter of that name. *)
Theorem C78_own_derivative_refuted :
  (let ms := [case_member true 2 1; case_member true 4 3] in
   (* the composite's spectrum is its own Prefactor, here 5 *)
   is_derive (fun t => fst (fluxDensity t ms None)) 5 14 /\ fluxDensityDeriv 5 ms "Prefactor" None = Ok (20, None)) /\
  (let ms := [mk_member true 2 1 None (fun p => if String.eqb p "Integral" then Some 1 else None)] in
   is_derive (fun t => fst (fluxDensity t ms None)) 5 2 /\ fluxDensityDeriv 5 ms "Prefactor" None = Throw).
Proof.
  split.
  - split.
    + apply (is_derive_ext (fun t => t * 14)); [intros t; rewrite C78_density; cbn; ring|]. auto_derive; [trivial|ring].
    + rewrite derivs_none. cbn. destruct (Reqb_spec 2 0); [lra|]. destruct (Reqb_spec 4 0); [lra|]. cbn. do 2 f_equal. field.
  - split.
    + apply (is_derive_ext (fun t => t * 2)); [intros t; rewrite C78_density; cbn; ring|]. auto_derive; [trivial|ring].
    + rewrite derivs_none. reflexivity.
Qed.
Print Assumptions C78_own_derivative_refuted.

(** The flux of a composite does not depend on its members, although its density does. *)
Theorem C78_flux_refuted :
  forall integral spectrum emin emax ms ms', flux integral spectrum ms emin emax = flux integral spectrum ms' emin emax /\
  exists ms1 ms2, fst (fluxDensity 1 ms1 None) <> fst (fluxDensity 1 ms2 None).
Proof.
  intros. split; [reflexivity|]. exists [], [case_member true 2 1]. rewrite !C78_density. cbn. lra.
Qed.
Print Assumptions C78_flux_refuted.

(** The exposure of a composite cannot be computed, so its predicted counts read an empty vector. *)
Theorem C78_npred_refuted :
  forall spectrum energies, energies <> [] -> computeExposure energies = Throw /\ npredIntegrand spectrum energies [] = UB.
Proof. intros spectrum [|e es] H; [congruence|]. split; reflexivity. Qed.
Print Assumptions C78_npred_refuted.

(** *** Moving sources *)
Open Scope Z_scope.

Theorem C78_merge :
  forall A (build : source A -> A) binned single_fixed m id name fixed ns,
  consistent binned single_fixed m -> NoDup ns ->
  (forall n, In n ns -> mfind n (m_src m) <> None /\ loaded binned m n) ->
  mfind name (m_src m) = None \/ In name ns ->
  exists m' subs cache, mergeSources build binned single_fixed m id name fixed ns = (m', None) /\ consistent binned single_fixed m' /\
    mfind name (m_src m') = Some (mk_s id name fixed (Some (subs, cache))) /\
    restricted ns (m_src m) subs /\
    (forall x, x <> name -> mfind x (m_src m') = if in_dec Z.eq_dec x ns then None else mfind x (m_src m)) /\
    (if binned then
       (exists k, cache = Some k /\ restricted ns (m_maps m) k) /\
       (forall x, x <> name -> mfind x (m_maps m') = if in_dec Z.eq_dec x ns then None else mfind x (m_maps m)) /\
       (mfind name (m_maps m) = None \/ In name ns -> mfind name (m_maps m') = Some (build (mk_s id name fixed (Some (subs, cache)))))
     else cache = None /\ forall x, mfind x (m_maps m') = mfind x (m_maps m)).
Proof.
  intros A build binned single_fixed m id name fixed ns Hc Hnd Hns Hname.
  destruct (steal_all_ok build binned single_fixed m ns [] ([], if binned then Some [] else None) m) as (c & m1 & E & Hc1 & H1 & H2 & H3 & H4); auto.
  - intros x. reflexivity.
  - intros x. reflexivity.
  - constructor.
  - cbn [snd fst]. destruct binned; [|auto]. exists []. split; [reflexivity|]. split; [constructor|]. split; intros x; reflexivity.
  - cbn [app] in *. unfold mergeSources. rewrite E.
    set (s := mk_s id name fixed (Some c)).
    assert (N1 : mfind (s_name s) (m_src m1) = None).
    { rewrite (H2 (s_name s)). cbn [s s_name]. destruct (in_dec Z.eq_dec name ns); [reflexivity|]. destruct Hname; [assumption|contradiction]. }
    destruct (add_ok build binned single_fixed m1 s None Hc1 N1) as (maps & f & Ea & Hc2 & G1 & G2).
    change (if single_fixed && s_fixed s then None else None) with (if single_fixed && s_fixed s then @None A else None) in G2.
    destruct c as (subs, cache). exists (mk_model (minsert (s_name s) s (m_src m1)) maps f), subs, cache.
    split; [exact Ea|]. split; [exact Hc2|]. cbn [m_src m_maps m_fixed fst snd] in *. split; [apply mfind_insert_eq|].
    split; [exact H1|]. split.
    + intros x Hx. rewrite mfind_insert_neq by exact Hx. apply H2.
    + destruct binned.
      * destruct H4 as (k & Ek & Hk & Hk1 & Hk2). split; [exists k; auto|]. split.
        -- intros x Hx. rewrite G1 by now left. apply Hk2.
        -- intros Hm. specialize (G2 eq_refl). cbn [s s_name] in G2. etransitivity; [exact G2|].
           pose proof (Hk2 name) as Hk3. cbn [s_name] in *. rewrite Hk3. destruct (in_dec Z.eq_dec name ns) as [I|I].
           ++ destruct (single_fixed && _)%bool; reflexivity.
           ++ destruct Hm as [Hm|Hm]; [|contradiction]. rewrite Hm. destruct (single_fixed && _)%bool; reflexivity.
      * destruct H4 as (Ek & Hk). split; [exact Ek|]. intros x. rewrite G1 by now right. apply Hk.
Qed.
Print Assumptions C78_merge.

Theorem C78_round_trip :
  forall A (build : source A -> A) binned single_fixed m id name fixed ns,
  consistent binned single_fixed m -> NoDup ns ->
  (forall n, In n ns -> mfind n (m_src m) <> None /\ loaded binned m n) ->
  mfind name (m_src m) = None ->
  (* a source of the single fixed map has the map that is computed for it *)
  (forall n s, In n ns -> mfind n (m_src m) = Some s -> binned && single_fixed && s_fixed s = true -> mfind n (m_maps m) = Some (build s)) ->
  exists m' m'', mergeSources build binned single_fixed m id name fixed ns = (m', None) /\
    splitCompositeSource build binned single_fixed m' name = (m'', None) /\ consistent binned single_fixed m'' /\
    (forall x, mfind x (m_src m'') = mfind x (m_src m)) /\
    (forall x, x <> name -> mfind x (m_maps m'') = mfind x (m_maps m)) /\
    (forall x, In x (m_fixed m'') <-> In x (m_fixed m)).
Proof.
  intros A build binned single_fixed m id name fixed ns Hc Hnd Hns Hname Hbuilt.
  destruct (C78_merge A build binned single_fixed m id name fixed ns Hc Hnd Hns (or_introl Hname)) as (m1 & subs & cache & Em & Hc1 & Hcn & Hsub & Hsrc & Hmaps).
  exists m1.
  assert (Hni : ~ In name ns) by (intros I; destruct (Hns name I); congruence).
  assert (Hsubs : sorted subs).
  { clear -Em Hcn Hc Hns Hnd. revert Em. unfold mergeSources.
    destruct (steal_all_ok build binned single_fixed m ns [] ([], if binned then Some [] else None) m) as (c & m2 & E & Hc2 & _ & _ & Hso & _); auto.
    - intros x. reflexivity.
    - intros x. reflexivity.
    - constructor.
    - cbn [snd fst]. destruct binned; [|auto]. exists []. split; [reflexivity|]. split; [constructor|]. split; intros x; reflexivity.
    - rewrite E. intros Ea. assert (Es : mfind name (m_src m1) = Some (mk_s id name fixed (Some c))).
      { unfold addSource in Ea. cbn [s_name s_fixed] in Ea. destruct (mfind name (m_src m2)); [discriminate|].
        destruct (negb binned), (single_fixed && fixed), (existsb (Z.eqb name) (m_fixed m2)); injection Ea as <-; try discriminate; apply mfind_insert_eq. }
      rewrite Hcn in Es. injection Es as <-. exact Hso. }
  destruct (delete_ok build binned single_fixed m1 name _ Hc1 Hcn) as (maps & f & Ed & Hm2 & Hc2).
  set (m2 := mk_model (merase name (m_src m1)) maps f) in *.
  assert (Hkeys : NoDup (mkeys subs)).
  { unfold sorted in Hsubs. clear -Hsubs. induction (mkeys subs) as [|x l IH]; constructor; inversion Hsubs; subst; auto.
    intros I. match goal with H : List.Forall _ _ |- _ => rewrite List.Forall_forall in H; specialize (H _ I) end. lia. }
  assert (Hin : forall x, In x (mkeys subs) <-> In x ns).
  { intros x. pose proof (mfind_none x subs) as N. rewrite (Hsub x) in N.
    destruct (in_dec Z.eq_dec x ns) as [I|I]; destruct (in_dec Z.eq_dec x (mkeys subs)) as [J|J]; try tauto.
    - destruct (Hns x I) as (H & _). tauto. }
  assert (Hcache : if binned then exists k, cache = Some k /\ sorted k /\ (forall n, In n (mkeys subs) -> mfind n k <> None) else cache = None).
  { clear Ed Hm2 Hc2 m2. destruct binned; [|apply Hmaps].
    revert Em. unfold mergeSources.
    destruct (steal_all_ok build true single_fixed m ns [] ([], Some []) m) as (c & m3 & E & _ & _ & _ & _ & (k & Ek & Hk & Hk1 & _)); auto.
    - intros x. reflexivity.
    - intros x. reflexivity.
    - constructor.
    - cbn [snd fst]. exists []. split; [reflexivity|]. split; [constructor|]. split; intros x; reflexivity.
    - rewrite E. intros Ea. assert (Es : mfind name (m_src m1) = Some (mk_s id name fixed (Some c))).
      { unfold addSource in Ea. cbn [s_name s_fixed] in Ea. destruct (mfind name (m_src m3)); [discriminate|]. cbn [negb] in Ea.
        destruct (single_fixed && fixed), (existsb (Z.eqb name) (m_fixed m3)); injection Ea as <-; try discriminate; apply mfind_insert_eq. }
      rewrite Hcn in Es. injection Es as <-. cbn [snd] in Ek. exists k. split; [exact Ek|]. split; [exact Hk|].
      intros y Iy. apply Hin in Iy. rewrite (Hk1 y). cbn [app]. destruct (in_dec Z.eq_dec y ns); [|contradiction].
      destruct (Hns y Iy) as (_ & L). exact (L eq_refl). }
  destruct (give_all_ok build binned single_fixed (mkeys subs) (subs, cache) m2 Hkeys Hc2) as (c' & m3 & Eg & Hc3 & G1 & G2 & G3); cbn [fst snd]; auto.
  - intros n s E. rewrite (Hsub n) in E. destruct (in_dec Z.eq_dec n ns); [|discriminate]. exact (co_name _ _ _ Hc _ _ E).
  - intros n I. apply Hin in I. destruct (Hns n I) as (Hn & _). split.
    + rewrite (Hsub n). destruct (in_dec Z.eq_dec n ns); [exact Hn|contradiction].
    + cbn [m2 m_src]. rewrite mfind_erase_neq by (intros ->; contradiction). rewrite Hsrc by (intros ->; contradiction).
      destruct (in_dec Z.eq_dec n ns); [reflexivity|contradiction].
  - exists m3. split; [exact Em|].
    assert (Hfinal : forall x, mfind x (m_src m3) = mfind x (m_src m)).
    { intros x. rewrite G1. cbn [fst m2 m_src]. destruct (in_dec Z.eq_dec x (mkeys subs)) as [I|I].
      - rewrite (Hsub x). apply Hin in I. destruct (in_dec Z.eq_dec x ns); [reflexivity|contradiction].
      - assert (I' : ~ In x ns) by (rewrite <- Hin; exact I). destruct (Z.eq_dec x name) as [-> | Hx].
        + rewrite mfind_erase_eq by apply Hc1. congruence.
        + rewrite mfind_erase_neq, Hsrc by auto. destruct (in_dec Z.eq_dec x ns); [contradiction|reflexivity]. }
    split; [|split; [exact Hc3|split; [exact Hfinal|split]]].
    + unfold splitCompositeSource. rewrite Ed. cbn [s_sub fst]. rewrite Eg. reflexivity.
    + intros x Hx. destruct binned eqn:Eb.
      * destruct Hmaps as ((k & -> & Hk) & Hmm & _).
        assert (Hmx : mfind x maps = mfind x (m_maps m1)) by (apply Hm2; now left).
        destruct (in_dec Z.eq_dec x (mkeys subs)) as [I|I].
        -- apply Hin in I as I'. destruct (Hns x I') as (Hs & L). specialize (L eq_refl).
           destruct (mfind x (m_src m)) as [s|] eqn:Es; [|congruence].
           assert (Esub : mfind x subs = Some s) by (rewrite (Hsub x); destruct (in_dec Z.eq_dec x ns); [exact Es|contradiction]).
           rewrite (G3 x s k I Esub eq_refl eq_refl). cbn [m2 m_maps]. rewrite Hmx, (Hmm x Hx), (Hk x).
           destruct (in_dec Z.eq_dec x ns); [|contradiction]. unfold given.
           destruct (single_fixed && s_fixed s) eqn:Ef.
           ++ rewrite (Hbuilt x s I' Es) by exact Ef. reflexivity.
           ++ destruct (mfind x (m_maps m)); [reflexivity|congruence].
        -- rewrite G2 by now left. cbn [m2 m_maps]. rewrite Hmx, (Hmm x Hx). assert (I' : ~ In x ns) by (rewrite <- Hin; exact I).
           destruct (in_dec Z.eq_dec x ns); [contradiction|reflexivity].
      * rewrite G2 by now right. cbn [m2 m_maps]. rewrite (Hm2 x) by now left. apply Hmaps.
    + intros x. rewrite (co_fixed _ _ _ Hc3), (co_fixed _ _ _ Hc). now rewrite Hfinal.
Qed.
Print Assumptions C78_round_trip.

(** A binned model with two sources, the second of them fixed. *)
Definition case_source (id : nat) (name : Z) (fixed : bool) : source nat := mk_s id name fixed None.
Definition case_model : model nat := mk_model [(1, case_source 1 1 false); (2, case_source 2 2 true)] [(1, 100%nat); (2, 2%nat)] [2].
Example C78_case_model : consistent true true case_model /\ forall n, In n [1; 2] -> mfind n (m_src case_model) <> None /\ loaded true case_model n.
Proof.
  split.
  - constructor; cbn.
    + repeat constructor; lia.
    + repeat constructor; lia.
    + intros n s. destruct (Z.eqb_spec n 1); [intros E; injection E as <-; auto|]. destruct (Z.eqb_spec n 2); [intros E; injection E as <-; auto|discriminate].
    + repeat constructor; cbn; tauto.
    + intros n. split; [intros [<- | []]; exists (case_source 2 2 true); auto|]. intros (s & E & F).
      destruct (Z.eqb_spec n 1); [injection E as <-; discriminate|]. destruct (Z.eqb_spec n 2); [auto|discriminate].
  - intros n [<- | [<- | []]]; (split; [discriminate|intros _; discriminate]).
Qed.

(** Merging a source whose map was not loaded yet throws; the source is then in no model. *)
Theorem C78_unloaded_refuted :
  forall A (build : source A -> A) single_fixed m id name fixed n ns s, consistent true single_fixed m ->
  mfind n (m_src m) = Some s -> s_fixed s = false -> mfind n (m_maps m) = None ->
  exists m', mergeSources build true single_fixed m id name fixed (n :: ns) = (m', Some ENoMap) /\
    mfind n (m_src m') = None /\ (forall x, x <> n -> mfind x (m_src m') = mfind x (m_src m)).
Proof.
  intros A build single_fixed m id name fixed n ns s Hc Hs Hf Hm.
  assert (Ef : existsb (Z.eqb n) (m_fixed m) = false).
  { destruct (existsb (Z.eqb n) (m_fixed m)) eqn:E; [|reflexivity]. apply existsb_in in E. apply (co_fixed _ _ _ Hc) in E as (s0 & E & F).
    rewrite Hs in E. injection E as <-. rewrite Hf, andb_false_r in F. discriminate. }
  unfold mergeSources. cbn [steal_all]. unfold steal_source, deleteSource. rewrite Ef, Hs. cbn [m_maps]. rewrite Hm.
  eexists. split; [reflexivity|]. cbn [m_src]. split; [apply mfind_erase_eq, Hc|]. intros x Hx. now apply mfind_erase_neq.
Qed.
Print Assumptions C78_unloaded_refuted.

(** After splitting, the map of the composite stays in the cache: another composite of the same name, of other sources,
    gets it. *)
Theorem C78_stale_refuted :
  exists m1 m2 m3, mergeSources s_id true false case_model 10 5 false [1] = (m1, None) /\
    splitCompositeSource s_id true false m1 5 = (m2, None) /\ mfind 5 (m_src m2) = None /\ mfind 5 (m_maps m2) = Some 10%nat /\
    mergeSources s_id true false m2 11 5 false [2] = (m3, None) /\
    exists s, mfind 5 (m_src m3) = Some s /\ s_id s = 11%nat /\ mfind 5 (m_maps m3) = Some 10%nat.
Proof. eexists _, _, _. split; [reflexivity|]. split; [reflexivity|]. split; [reflexivity|]. split; [reflexivity|]. split; [reflexivity|]. eexists. repeat split. Qed.
Print Assumptions C78_stale_refuted.

(** A source of the single fixed map whose image was set by the user: after merging and splitting it has the computed one. *)
Theorem C78_fixed_image_refuted :
  exists m0 m1 m2, consistent true true m0 /\ mfind 2 (m_maps m0) = Some 77%nat /\
    mergeSources s_id true true m0 10 5 false [2] = (m1, None) /\ splitCompositeSource s_id true true m1 5 = (m2, None) /\
    mfind 2 (m_maps m2) = Some 2%nat.
Proof.
  assert (H : consistent true true (mk_model (m_src case_model) [(1, 100%nat); (2, 77%nat)] [2])).
  { destruct C78_case_model as ([H1 H2 H3 H4 H5] & _). constructor; auto. }
  eexists _, _, _. split; [exact H|]. split; [reflexivity|]. split; [reflexivity|]. split; reflexivity.
Qed.
Print Assumptions C78_fixed_image_refuted.

(** Splitting when a source of the same name has been added meanwhile throws, and the composite and the members not yet
    moved are in no model. *)
Theorem C78_collision_refuted :
  exists m1 m2 m3, mergeSources s_id true false case_model 10 5 false [1; 2] = (m1, None) /\
    addSource s_id true false m1 (case_source 7 1 false) None = (m2, None) /\
    splitCompositeSource s_id true false m2 5 = (m3, Some EDuplicate) /\
    map (fun p => s_id (snd p)) (m_src m3) = [7%nat].
Proof. eexists _, _, _. repeat split. Qed.
Print Assumptions C78_collision_refuted.

(** C67: binned exposure maps. *)
From Coq Require Import Reals List Lia Lra ZArith.
From Flocq Require Import Core.
From Verif Require Import Base AccumModel AccumProofs EgridModel EgridProofs EgridProps BexpModel BexpSpec BexpProofs.
Import ListNotations.
Local Open Scope R_scope.
Local Open Scope list_scope.

Section C67.
  Context {Name Dir Resp : Type}.
  Variable pix2dir : @geometry Name -> R -> R -> option Dir.
  Variable dir2pix : @geometry Name -> Dir -> R * R.
  Variable expo : Dir -> Resp -> R -> R.
  Notation counts_map := (from_counts_map pix2dir expo).
  Notation pars_map := (from_pars pix2dir expo).
  Notation allsky_map := (from_energies pix2dir expo).

  (** The maps a program can compute. *)
  Inductive made (resps : list Resp) : @bexp Name -> Prop :=
  | made_counts : forall g nx ny es ue n b, counts_map resps g nx ny es ue n = Ok b -> made resps b
  | made_pars : forall es nx ny binsz xref yref rot proj gal b, pars_map resps es nx ny binsz xref yref rot proj gal = Ok b -> made resps b
  | made_allsky : forall car es b, allsky_map car resps es = Ok b -> made resps b
  | made_flag : forall b flag, made resps b -> made resps (setBoundaryFlag b flag).

  Lemma computed_tab resps g es nx ny map : computeMap pix2dir expo resps g es nx ny [] = Ok map ->
    tabulates expo resps (pix2dir g) es nx ny map.
  Proof.
    intros H. destruct (computeMap_ok pix2dir expo resps g es nx ny) as (mp & E & L & A). rewrite E in H. injection H as <-.
    split; [exact L|]. intros k j i e He Hj Hi. assert (Hk : (k < length es)%nat) by (apply nth_error_Some; congruence).
    replace (k * (ny * nx) + j * nx + i)%nat with ((k * ny + j) * nx + i)%nat by nia.
    rewrite (nth_error_nth' mp 0) by (rewrite L; apply idx_lt; assumption). rewrite (A k j i Hk Hj Hi). unfold pixel_value.
    rewrite (nth_error_nth es k 0 He). rewrite !plus_INR. reflexivity.
  Qed.

  Lemma made_tab resps b : made resps b -> tabulates expo resps (pix2dir (b_proj b)) (b_energies b) (b_nx b) (b_ny b) (b_map b).
  Proof.
    induction 1 as [g nx ny es ue n b H|es nx ny bs x y rot proj gal b H|car es b H|b fl H IH].
    - unfold from_counts_map in H. destruct (expand_energies es n) as [e1| |]; try discriminate H. cbn [obind] in H.
      destruct (if ue then Ok (e1, length es) else obind (mean_energies e1) (fun es' => Ok (es', (length es - 1)%nat))) as [[e2 m]| |]; try discriminate H. cbn [obind fst snd] in H.
      destruct (computeMap pix2dir expo resps g e2 nx ny []) as [mp| |] eqn:E; try discriminate H. injection H as <-. exact (computed_tab _ _ _ _ _ _ E).
    - unfold from_pars in H. cbv zeta in H. destruct (computeMap pix2dir expo resps _ es nx ny []) as [mp| |] eqn:E; try discriminate H. injection H as <-. exact (computed_tab _ _ _ _ _ _ E).
    - unfold from_energies in H. cbv zeta in H. destruct (computeMap pix2dir expo resps _ es 360 180 []) as [mp| |] eqn:E; try discriminate H. injection H as <-. exact (computed_tab _ _ _ _ _ _ E).
    - exact IH.
  Qed.

  (** Construction from energies succeeds and tabulates them all on the pixels asked for. *)
  Theorem C67_map : forall resps es nx ny binsz xref yref rot proj gal,
    exists b, pars_map resps es nx ny binsz xref yref rot proj gal = Ok b /\
      b_energies b = es /\ b_nx b = nx /\ b_ny b = ny /\
      g_crpix (b_proj b) = ((INR nx + 1) / 2, (INR ny + 1) / 2) /\ g_crval (b_proj b) = (xref, yref) /\
      g_cdelt (b_proj b) = (- binsz, binsz) /\ g_crota2 (b_proj b) = rot /\ g_name (b_proj b) = proj /\ g_galactic (b_proj b) = gal /\
      tabulates expo resps (pix2dir (b_proj b)) es nx ny (b_map b).
  Proof.
    intros. unfold from_pars. cbv zeta. set (g := mkGeometry _ _ _ _ _ _).
    destruct (computeMap_ok pix2dir expo resps g es nx ny) as (mp & E & L & A). rewrite E. cbn [obind]. eexists. split; [reflexivity|].
    cbn [b_energies b_nx b_ny b_proj b_map]. unfold g at 1 2 3 4 5 6. cbn [g_crpix g_crval g_cdelt g_crota2 g_name g_galactic].
    repeat (split; [first [reflexivity|f_equal; lra]|]). exact (computed_tab _ _ _ _ _ _ E).
  Qed.

  (** The default map covers the sky in pixels of one degree. *)
  Theorem C67_allsky : forall car resps es,
    exists b, allsky_map car resps es = Ok b /\ b_energies b = es /\ b_nx b = 360%nat /\ b_ny b = 180%nat /\
      g_cdelt (b_proj b) = (-1, 1) /\ g_crval (b_proj b) = (180, 0) /\ g_crpix (b_proj b) = (180 + 1 / 2, 90 + 1 / 2) /\ g_crota2 (b_proj b) = 0 /\ g_galactic (b_proj b) = false /\
      tabulates expo resps (pix2dir (b_proj b)) es (b_nx b) (b_ny b) (b_map b).
  Proof.
    intros. unfold from_energies. cbv zeta. set (g := mkGeometry _ _ _ _ _ _).
    destruct (computeMap_ok pix2dir expo resps g es 360 180) as (mp & E & L & A). rewrite E. cbn [obind]. eexists. split; [reflexivity|].
    cbn [b_energies b_nx b_ny b_proj b_map]. unfold g at 1 2 3 4 5. cbn [g_crpix g_crval g_cdelt g_crota2 g_galactic].
    split; [reflexivity|]. split; [reflexivity|]. split; [reflexivity|]. split; [reflexivity|]. split; [reflexivity|].
    split; [rewrite !INR_IZR_INZ; cbn [Z.of_nat Pos.of_succ_nat Pos.succ]; f_equal; lra|].
    split; [reflexivity|]. split; [reflexivity|]. exact (computed_tab _ _ _ _ _ _ E).
  Qed.

  (** From a counts map: the energies are those of the map, widened by the
      requested number of bins, or the geometric means of neighbours of them. *)
  Theorem C67_counts : forall resps g nx ny es ue n, (2 <= length es)%nat -> List.Forall (fun e => 0 < e) es ->
    exists wide b, expand_energies es n = Ok wide /\ length wide = (length es + 2 * n)%nat /\
      counts_map resps g nx ny es ue n = Ok b /\ b_proj b = g /\
      (ue = true -> b_energies b = wide) /\ (ue = false -> midpoints wide (b_energies b)) /\
      tabulates expo resps (pix2dir g) (b_energies b) nx ny (b_map b).
  Proof.
    intros resps g nx ny es ue n H2 Hp. destruct (C09_expand_energies es n) as (wide & E & L & _); [assumption..|].
    exists wide. unfold from_counts_map. cbv zeta. rewrite E. cbn [obind]. destruct ue.
    - cbn [obind fst snd]. destruct (computeMap_ok pix2dir expo resps g wide nx ny) as (mp & E' & _). rewrite E'. cbn [obind]. eexists.
      split; [reflexivity|]. split; [lia|]. split; [reflexivity|]. split; [reflexivity|]. split; [reflexivity|]. split; [discriminate|]. exact (computed_tab _ _ _ _ _ _ E').
    - destruct (mean_energies_ok wide) as (ms & EM & LM & NM); [intros ->; simpl in L; lia|]. rewrite EM. cbn [obind fst snd].
      destruct (computeMap_ok pix2dir expo resps g ms nx ny) as (mp & E' & _). rewrite E'. cbn [obind]. eexists.
      split; [reflexivity|]. split; [lia|]. split; [reflexivity|]. split; [reflexivity|]. split; [discriminate|]. split; [intros _; split; assumption|]. exact (computed_tab _ _ _ _ _ _ E').
  Qed.

  (** ** Energies *)

  Lemma selects_ok l x k : selects (1 / 100000) l x k -> findNearest l x (1 / 100000) = Ok k.
  Proof. intros [H|(H1 & H2 & H3)]; [now apply find_exact|now apply find_close]. Qed.

  (** An energy is found exactly when some entry agrees with it to the
      tolerance; otherwise the request is refused. *)
  Theorem C67_find : forall l x tol, 0 <= tol ->
    (forall k, selects tol l x k -> findNearest l x tol = Ok k) /\
    (forall k, findNearest l x tol = Ok k -> selects tol l x k) /\
    ((forall k, ~ selects tol l x k) -> findNearest l x tol = Throw).
  Proof.
    intros l x tol Ht.
    assert (B : forall k, findNearest l x tol = Ok k -> selects tol l x k).
    { intros k. unfold findNearest. destruct (find_from (fun a => Reqb a x) l 0) as [k'|] eqn:E.
      - intros H. injection H as <-. apply find_from_some in E. rewrite Nat.sub_0_r in E. destruct E as (_ & (y & Hy & Py) & Hb). left. split.
        + exists y. split; [exact Hy|]. destruct (Reqb_spec y x); [assumption|discriminate].
        + intros j z Hj Hz ->. specialize (Hb j x Hj Hz). destruct (Reqb_spec x x); [discriminate|congruence].
      - destruct (find_from (fun a => if Reqb x 0 then false else Rltb (fracDiff x a) tol) l 0) as [k'|] eqn:E2; [|discriminate].
        intros H. injection H as <-. apply find_from_some in E2. rewrite Nat.sub_0_r in E2. destruct E2 as (_ & (y & Hy & Py) & Hb). right.
        destruct (Reqb_spec x 0) as [|Hx]; [discriminate|]. split; [exact Hx|]. split.
        + intros j z Hz ->. pose proof (find_from_none _ _ _ E j x Hz) as Q. cbv beta in Q. destruct (Reqb_spec x x); [discriminate|congruence].
        + split; [exists y; split; [exact Hy|]; destruct (Rltb_spec (fracDiff x y) tol); [assumption|discriminate]|].
          intros j z Hj Hz C. specialize (Hb j z Hj Hz). destruct (Rltb_spec (fracDiff x z) tol) as [|N]; [discriminate|]. apply N. exact C. }
    split; [|split; [exact B|]].
    - intros k [H|(H1 & H2 & H3)]; [now apply find_exact|now apply find_close].
    - intros H. destruct (findNearest l x tol) as [k| |] eqn:E; [exfalso; exact (H k (B k eq_refl))|reflexivity|].
      exfalso. unfold findNearest in E. destruct (find_from _ l 0); [discriminate|]. destruct (find_from _ l 0); discriminate.
  Qed.

  (** ** Directions *)

  Lemma at_pixel_trunc x i : at_pixel x i -> Ztrunc (x - 1) = Z.of_nat i.
  Proof. apply trunc_pixel. Qed.

  Lemma off_not_inside b d : off_map (b_nx b) (b_ny b) (dir2pix (b_proj b) d) -> inside b (pixel_of dir2pix b d) = false.
  Proof.
    unfold off_map, pixel_of, inside. destruct (dir2pix (b_proj b) d) as [x y]. cbn [fst snd].
    assert (Lo : forall z, z <= 0 -> (0 <=? Ztrunc (z - 1))%Z = false).
    { intros z Hz. apply Z.leb_gt. rewrite Ztrunc_ceil by lra. apply lt_IZR. apply Rle_lt_trans with (IZR (-1)); [|simpl; lra].
      apply IZR_le. apply Zceil_glb. simpl. lra. }
    assert (Hi : forall z n, INR n + 1 <= z -> (Ztrunc (z - 1) <? Z.of_nat n)%Z = false).
    { intros z n Hz. apply Z.ltb_ge. pose proof (pos_INR n). rewrite Ztrunc_floor by lra. apply Zfloor_lub. rewrite <- INR_IZR_INZ. lra. }
    intros [H|[H|[H|H]]].
    - now rewrite (Lo x H).
    - rewrite (Hi x _ H). now rewrite !Bool.andb_false_r.
    - rewrite (Lo y H). now rewrite Bool.andb_false_r.
    - rewrite (Hi y _ H). now rewrite !Bool.andb_false_r.
  Qed.

  Lemma inside_at (b : @bexp Name) d i j : at_pixel (fst (dir2pix (b_proj b) d)) i -> at_pixel (snd (dir2pix (b_proj b) d)) j ->
    pixel_of dir2pix b d = (Z.of_nat i, Z.of_nat j).
  Proof. intros Hx Hy. unfold pixel_of. now rewrite (at_pixel_trunc _ _ Hx), (at_pixel_trunc _ _ Hy). Qed.

  Lemma lookup_at (b : @bexp Name) e k d I J (v : R) : findNearest (b_energies b) e (1 / 100000) = Ok k -> pixel_of dir2pix b d = (Z.of_nat I, Z.of_nat J) ->
    b_enforce b = false \/ ((I < b_nx b)%nat /\ (J < b_ny b)%nat) ->
    (Z.of_nat ((k * b_ny b + J) * b_nx b + I) < 2 ^ 32)%Z ->
    nth_error (b_map b) ((k * b_ny b + J) * b_nx b + I) = Some v -> lookup dir2pix b e d = Ok v.
  Proof.
    intros HF HP HB HZ HV. unfold lookup. rewrite HF. cbn [obind]. rewrite HP. cbn [fst snd]. pose proof (find_bound _ _ _ _ HF) as HK.
    assert (HG : (b_enforce b && negb (inside b (Z.of_nat I, Z.of_nat J) && (k <? length (b_energies b))%nat))%bool = false).
    { destruct HB as [->|(H1 & H2)]; [reflexivity|]. unfold inside. 
      assert ((0 <=? Z.of_nat I)%Z = true) as -> by (apply Z.leb_le; lia). assert ((Z.of_nat I <? Z.of_nat (b_nx b))%Z = true) as -> by (apply Z.ltb_lt; lia).
      assert ((0 <=? Z.of_nat J)%Z = true) as -> by (apply Z.leb_le; lia). assert ((Z.of_nat J <? Z.of_nat (b_ny b))%Z = true) as -> by (apply Z.ltb_lt; lia).
      rewrite (proj2 (Nat.ltb_lt _ _) HK). cbn [andb negb]. apply Bool.andb_false_r. }
    rewrite HG. rewrite Z.mod_small by lia.
    replace (Z.to_nat ((Z.of_nat k * Z.of_nat (b_ny b) + Z.of_nat J) * Z.of_nat (b_nx b) + Z.of_nat I)) with ((k * b_ny b + J) * b_nx b + I)%nat by lia.
    rewrite HV. reflexivity.
  Qed.

  (** Inside the map a look-up gives the tabulated exposure of the pixel the
      direction is assigned to, at the entry selected for the energy. *)
  Theorem C67_lookup_partial : forall resps b e k ek d i j, made resps b ->
    (Z.of_nat (b_nx b) * Z.of_nat (b_ny b) * Z.of_nat (length (b_energies b)) <= 2 ^ 32)%Z ->
    selects (1 / 100000) (b_energies b) e k -> nth_error (b_energies b) k = Some ek ->
    at_pixel (fst (dir2pix (b_proj b) d)) i -> at_pixel (snd (dir2pix (b_proj b) d)) j -> (i < b_nx b)%nat -> (j < b_ny b)%nat ->
    lookup dir2pix b e d = Ok (pixel_exposure expo resps (pix2dir (b_proj b) (INR i + 1) (INR j + 1)) ek).
  Proof.
    intros resps b e k ek d i j HM HZ HS Hk Hx Hy Hi Hj. destruct (made_tab _ _ HM) as (L & A).
    assert (HK : (k < length (b_energies b))%nat) by (apply nth_error_Some; congruence).
    assert (B : ((k * b_ny b + j) * b_nx b + i < b_nx b * b_ny b * length (b_energies b))%nat) by (apply idx_lt; assumption).
    apply (lookup_at b e k d i j); [now apply selects_ok|now apply inside_at|right; split; assumption|lia|].
    replace ((k * b_ny b + j) * b_nx b + i)%nat with (k * (b_ny b * b_nx b) + j * b_nx b + i)%nat by nia. now apply A.
  Qed.

  (** All energies at once: the same exposures inside the map. *)
  Theorem C67_directions : forall resps b d i j reqs ks, made resps b ->
    (Z.of_nat (b_nx b) * Z.of_nat (b_ny b) * Z.of_nat (length (b_energies b)) <= 2 ^ 32)%Z ->
    at_pixel (fst (dir2pix (b_proj b) d)) i -> at_pixel (snd (dir2pix (b_proj b) d)) j -> (i < b_nx b)%nat -> (j < b_ny b)%nat ->
    Forall2 (selects (1 / 100000) (b_energies b)) reqs ks ->
    exists out, get_exposures_for_dir dir2pix b d reqs = Ok out /\
      Forall2 (fun k v => exists ek, nth_error (b_energies b) k = Some ek /\ v = pixel_exposure expo resps (pix2dir (b_proj b) (INR i + 1) (INR j + 1)) ek) ks out /\
      Forall2 (fun e v => lookup dir2pix b e d = Ok v) reqs out.
  Proof.
    intros resps b d i j reqs ks HM HZ Hx Hy Hi Hj HF.
    assert (LK : forall e k ek, selects (1 / 100000) (b_energies b) e k -> nth_error (b_energies b) k = Some ek ->
      lookup dir2pix b e d = Ok (pixel_exposure expo resps (pix2dir (b_proj b) (INR i + 1) (INR j + 1)) ek)).
    { intros e k ek HS Hk. now apply (C67_lookup_partial resps b e k ek d i j). }
    destruct (made_tab _ _ HM) as (L & A). unfold get_exposures_for_dir. rewrite (inside_at b d i j Hx Hy).
    assert (IN : inside b (Z.of_nat i, Z.of_nat j) = true).
    { unfold inside. assert ((0 <=? Z.of_nat i)%Z = true) as -> by (apply Z.leb_le; lia). assert ((Z.of_nat i <? Z.of_nat (b_nx b))%Z = true) as -> by (apply Z.ltb_lt; lia).
      assert ((0 <=? Z.of_nat j)%Z = true) as -> by (apply Z.leb_le; lia). assert ((Z.of_nat j <? Z.of_nat (b_ny b))%Z = true) as -> by (apply Z.ltb_lt; lia). reflexivity. }
    rewrite IN. cbn [negb]. rewrite Bool.andb_false_r.
    match goal with |- exists _, mfold ?st _ _ = _ /\ _ => set (step := st) end.
    assert (ST : forall acc e k ek, selects (1 / 100000) (b_energies b) e k -> nth_error (b_energies b) k = Some ek ->
      step acc e = Ok (acc ++ [pixel_exposure expo resps (pix2dir (b_proj b) (INR i + 1) (INR j + 1)) ek])).
    { intros acc e k ek HS Hk. assert (HK : (k < length (b_energies b))%nat) by (apply nth_error_Some; congruence).
      unfold step. rewrite (selects_ok _ _ _ HS). cbn [obind]. rewrite (proj2 (Nat.ltb_lt _ _) HK). cbn [negb andb]. rewrite Bool.andb_false_r.
      assert (B : ((k * b_ny b + j) * b_nx b + i < b_nx b * b_ny b * length (b_energies b))%nat) by (apply idx_lt; assumption).
      rewrite Z.mod_small by lia.
      replace (b_nx b * b_ny b * k + Z.to_nat (Z.of_nat j * Z.of_nat (b_nx b) + Z.of_nat i))%nat with (k * (b_ny b * b_nx b) + j * b_nx b + i)%nat by nia.
      unfold vec_get. rewrite (A k j i ek Hk Hj Hi). reflexivity. }
    assert (G : forall acc, exists out, mfold step reqs acc = Ok (acc ++ out) /\
      Forall2 (fun k v => exists ek, nth_error (b_energies b) k = Some ek /\ v = pixel_exposure expo resps (pix2dir (b_proj b) (INR i + 1) (INR j + 1)) ek) ks out /\
      Forall2 (fun e v => lookup dir2pix b e d = Ok v) reqs out).
    { induction HF as [|e k reqs ks HS HF IH]; intros acc.
      - exists []. rewrite app_nil_r. split; [reflexivity|]. split; constructor.
      - assert (HK : (k < length (b_energies b))%nat).
        { apply (find_bound (b_energies b) e (1 / 100000)). now apply selects_ok. }
        pose proof (nth_error_nth' (b_energies b) 0 HK) as Hk.
        cbn [mfold]. rewrite (ST acc e k _ HS Hk). cbn [obind]. destruct (IH (acc ++ [pixel_exposure expo resps (pix2dir (b_proj b) (INR i + 1) (INR j + 1)) (nth k (b_energies b) 0)])) as (out & E & F1 & F2).
        rewrite E. rewrite <- app_assoc. cbn [app]. eexists. split; [reflexivity|]. split; constructor; try assumption; [eexists; split; [exact Hk|reflexivity]|].
        exact (LK e k _ HS Hk). }
    destruct (G []) as (out & E & F1 & F2). exists out. split; [exact E|]. split; assumption.
  Qed.

  Lemma off_bounds : forall (b : @bexp Name) d, off_map (b_nx b) (b_ny b) (dir2pix (b_proj b) d) ->
    (b_enforce b = true -> (forall e, lookup dir2pix b e d = Throw) /\ forall reqs, get_exposures_for_dir dir2pix b d reqs = Throw) /\
    (b_enforce b = false -> forall reqs, (forall e, In e reqs -> exists k, selects (1 / 100000) (b_energies b) e k) ->
       get_exposures_for_dir dir2pix b d reqs = Ok (map (fun _ => 0) reqs)).
  Proof.
    intros b d HO. pose proof (off_not_inside b d HO) as IN. split; intros HE.
    - split; [intros e|intros reqs].
      + unfold lookup. destruct (findNearest (b_energies b) e (1 / 100000)) as [k| |] eqn:F; [|reflexivity|].
        * cbn [obind]. destruct (pixel_of dir2pix b d) as [i j]. rewrite IN, HE. reflexivity.
        * exfalso. unfold findNearest in F. destruct (find_from _ _ 0); [discriminate|]. destruct (find_from _ _ 0); discriminate.
      + unfold get_exposures_for_dir. destruct (pixel_of dir2pix b d) as [i j]. rewrite IN, HE. reflexivity.
    - intros reqs HR. unfold get_exposures_for_dir. destruct (pixel_of dir2pix b d) as [i j]. rewrite IN, HE. cbn [andb negb].
      match goal with |- mfold ?st _ _ = _ => set (step := st) end.
      assert (G : forall acc, mfold step reqs acc = Ok (acc ++ map (fun _ => 0) reqs)); [|apply (G [])].
      induction reqs as [|e l IH]; intros acc; [cbn [mfold map]; now rewrite app_nil_r|].
      destruct (HR e (or_introl eq_refl)) as (k & HS).
      assert (K : step acc e = Ok (acc ++ [0])). { unfold step. rewrite (selects_ok _ _ _ HS). cbn [obind]. reflexivity. }
      cbn [mfold]. rewrite K. cbn [obind]. rewrite IH by (intros; apply HR; now right). rewrite <- app_assoc. reflexivity.
  Qed.

  (** Off the map: refused when the boundaries are enforced; otherwise the
      request for all energies gives zeros. *)
  Theorem C67_bounds : forall (b : @bexp Name) d, off_map (b_nx b) (b_ny b) (dir2pix (b_proj b) d) ->
    (forall e, lookup dir2pix (setBoundaryFlag b true) e d = Throw) /\
    (forall reqs, get_exposures_for_dir dir2pix (setBoundaryFlag b true) d reqs = Throw) /\
    (forall reqs, (forall e, In e reqs -> exists k, selects (1 / 100000) (b_energies b) e k) ->
       get_exposures_for_dir dir2pix (setBoundaryFlag b false) d reqs = Ok (map (fun _ => 0) reqs)).
  Proof.
    intros b d HO. split; [|split].
    - apply (proj1 (off_bounds (setBoundaryFlag b true) d HO) eq_refl).
    - apply (proj1 (off_bounds (setBoundaryFlag b true) d HO) eq_refl).
    - apply (proj2 (off_bounds (setBoundaryFlag b false) d HO) eq_refl).
  Qed.

  (** Without enforcement a single look-up beyond the end of a row gives the
      exposure of the first pixel of the next row, where the request for all
      energies gives zero. *)
  Theorem C67_wrap_refuted : forall resps b e k ek d j, made resps b -> b_enforce b = false -> (0 < b_nx b)%nat ->
    (Z.of_nat (b_nx b) * Z.of_nat (b_ny b) * Z.of_nat (length (b_energies b)) <= 2 ^ 32)%Z ->
    selects (1 / 100000) (b_energies b) e k -> nth_error (b_energies b) k = Some ek ->
    at_pixel (fst (dir2pix (b_proj b) d)) (b_nx b) -> at_pixel (snd (dir2pix (b_proj b) d)) j -> (S j < b_ny b)%nat ->
    off_map (b_nx b) (b_ny b) (dir2pix (b_proj b) d) /\
    lookup dir2pix b e d = Ok (pixel_exposure expo resps (pix2dir (b_proj b) 1 (INR (S j) + 1)) ek) /\
    get_exposures_for_dir dir2pix b d [e] = Ok [0].
  Proof.
    intros resps b e k ek d j HM HE H0 HZ HS Hk Hx Hy Hj. destruct (made_tab _ _ HM) as (L & A).
    assert (HK : (k < length (b_energies b))%nat) by (apply nth_error_Some; congruence).
    assert (OFF : off_map (b_nx b) (b_ny b) (dir2pix (b_proj b) d)) by (right; left; exact (proj1 Hx)).
    split; [exact OFF|]. split.
    - assert (B : ((k * b_ny b + S j) * b_nx b + 0 < b_nx b * b_ny b * length (b_energies b))%nat) by (apply idx_lt; assumption).
      assert (EQ : ((k * b_ny b + j) * b_nx b + b_nx b = k * (b_ny b * b_nx b) + S j * b_nx b + 0)%nat) by nia.
      apply (lookup_at b e k d (b_nx b) j); [now apply selects_ok|now apply inside_at|now left|nia|].
      rewrite EQ. pose proof (A k (S j) 0%nat ek Hk Hj H0) as Q. replace (INR 0 + 1) with 1 in Q by (simpl; ring). exact Q.
    - destruct (off_bounds b d OFF) as (_ & Q). rewrite (Q HE [e]); [reflexivity|]. intros e' [<-|[]]. now exists k.
  Qed.

  (** Coordinates are cut off, not rounded: beyond the middle between two
      pixel centres the exposure is still that of the lower one. *)
  Theorem C67_nearest_pixel_refuted : forall resps b e k ek d i j, made resps b ->
    (Z.of_nat (b_nx b) * Z.of_nat (b_ny b) * Z.of_nat (length (b_energies b)) <= 2 ^ 32)%Z ->
    selects (1 / 100000) (b_energies b) e k -> nth_error (b_energies b) k = Some ek ->
    INR i + 1 + 1 / 2 < fst (dir2pix (b_proj b) d) < INR i + 2 -> snd (dir2pix (b_proj b) d) = INR j + 1 -> (S i < b_nx b)%nat -> (j < b_ny b)%nat ->
    (forall i', Rabs (fst (dir2pix (b_proj b) d) - (INR (S i) + 1)) <= Rabs (fst (dir2pix (b_proj b) d) - (INR i' + 1))) /\
    lookup dir2pix b e d = Ok (pixel_exposure expo resps (pix2dir (b_proj b) (INR i + 1) (INR j + 1)) ek).
  Proof.
    intros resps b e k ek d i j HM HZ HS Hk Hx Hy Hi Hj. split.
    - intros i'. destruct (le_lt_dec i' i) as [Q|Q].
      + apply le_INR in Q. rewrite S_INR. rewrite (Rabs_left1 (_ - (INR i + 1 + 1))) by lra. rewrite Rabs_right by lra. lra.
      + apply le_INR in Q. rewrite S_INR in *. rewrite (Rabs_left1 (_ - (INR i + 1 + 1))) by lra. rewrite Rabs_left1 by lra. lra.
    - apply (C67_lookup_partial resps b e k ek d i j); try assumption; [unfold at_pixel; lra|unfold at_pixel; lra|lia].
  Qed.

  (** The first pixel also takes what lies up to one pixel to the left of its centre. *)
  Theorem C67_edge_refuted : forall resps b e k ek d, made resps b ->
    (Z.of_nat (b_nx b) * Z.of_nat (b_ny b) * Z.of_nat (length (b_energies b)) <= 2 ^ 32)%Z ->
    selects (1 / 100000) (b_energies b) e k -> nth_error (b_energies b) k = Some ek ->
    0 < fst (dir2pix (b_proj b) d) < 1 / 2 -> 0 < snd (dir2pix (b_proj b) d) < 1 / 2 -> (0 < b_nx b)%nat -> (0 < b_ny b)%nat ->
    lookup dir2pix b e d = Ok (pixel_exposure expo resps (pix2dir (b_proj b) 1 1) ek).
  Proof.
    intros resps b e k ek d HM HZ HS Hk Hx Hy Hi Hj. destruct (made_tab _ _ HM) as (L & A).
    assert (HK : (k < length (b_energies b))%nat) by (apply nth_error_Some; congruence).
    assert (B : ((k * b_ny b + 0) * b_nx b + 0 < b_nx b * b_ny b * length (b_energies b))%nat) by (apply idx_lt; assumption).
    apply (lookup_at b e k d 0 0); [now apply selects_ok| |right; split; assumption|lia|].
    - unfold pixel_of. rewrite !trunc_first by lra. reflexivity.
    - pose proof (A k 0%nat 0%nat ek Hk Hj Hi) as Q. replace (INR 0 + 1) with 1 in Q by (simpl; ring). rewrite <- Q. f_equal. nia.
  Qed.

  (** ** Files *)

  (** A map computed without energy dispersion bins about a centred,
      unrotated projection comes back from its file with the same table,
      energies and geometry, so that every look-up gives the same answer. *)
  Theorem C67_roundtrip_partial : forall resps es nx ny binsz xref yref proj gal b,
    pars_map resps es nx ny binsz xref yref 0 proj gal = Ok b ->
    exists f, writeOutput b = Ok f /\ f_data f = b_map b /\
      (let '(n1, n2, n3) := f_dims f in (n1 * n2 * n3)%nat = length (f_data f)) /\
      b_proj (from_file f) = b_proj b /\
      (forall e d, lookup dir2pix (from_file f) e d = lookup dir2pix b e d) /\
      (forall d reqs, get_exposures_for_dir dir2pix (from_file f) d reqs = get_exposures_for_dir dir2pix b d reqs).
  Proof.
    intros resps es nx ny binsz xref yref proj gal b H. pose proof (made_tab _ _ (made_pars _ _ _ _ _ _ _ _ _ _ _ H)) as (L & _).
    unfold from_pars in H. cbv zeta in H. destruct (computeMap _ _ _ _ _ _ _ _) as [mp| |]; try discriminate H. injection H as <-.
    cbn [b_energies b_nx b_ny b_map] in L. eexists. split; [reflexivity|]. cbn [b_map b_nx b_ny b_ne b_proj b_energies f_data f_dims g_crval g_cdelt].
    split; [reflexivity|]. split; [now rewrite L|].
    assert (G : mkGeometry proj gal ((INR nx + 1) / 2, (INR ny + 1) / 2) (xref, yref) (- binsz, binsz) 0 = mkGeometry proj gal (INR nx / 2 + 1 / 2, INR ny / 2 + 1 / 2) (xref, yref) (- binsz, binsz) 0).
    { f_equal. f_equal; lra. }
    unfold from_file. cbn [f_dims f_proj b_proj f_energies f_data]. split; [exact G|]. rewrite G. split; reflexivity.
  Qed.

  (** A rotated map does not: the file says it is unrotated. *)
  Theorem C67_rotation_refuted : forall resps es nx ny binsz xref yref rot proj gal b f, rot <> 0 ->
    pars_map resps es nx ny binsz xref yref rot proj gal = Ok b -> writeOutput b = Ok f ->
    g_crota2 (b_proj b) = rot /\ g_crota2 (b_proj (from_file f)) = 0 /\ b_map (from_file f) = b_map b.
  Proof.
    intros resps es nx ny binsz xref yref rot proj gal b f Hr H HW. unfold from_pars in H. cbv zeta in H.
    destruct (computeMap _ _ _ _ _ _ _ _) as [mp| |]; try discriminate H. injection H as <-. injection HW as <-. split; [reflexivity|]. split; reflexivity.
  Qed.

  (** Nor does a map whose counts map has its reference pixel elsewhere. *)
  Theorem C67_reference_refuted : forall resps g nx ny es ue n b f, g_crpix g <> ((INR nx + 1) / 2, (INR ny + 1) / 2) ->
    counts_map resps g nx ny es ue n = Ok b -> writeOutput b = Ok f ->
    b_proj b = g /\ b_map (from_file f) = b_map b /\ b_proj (from_file f) <> b_proj b.
  Proof.
    intros resps g nx ny es ue n b f Hg H HW. unfold from_counts_map in H. cbv zeta in H.
    destruct (expand_energies es n) as [e1| |]; try discriminate H. cbn [obind] in H.
    destruct (if ue then Ok (e1, length es) else obind (mean_energies e1) (fun es' => Ok (es', (length es - 1)%nat))) as [[e2 m]| |]; try discriminate H. cbn [obind fst snd] in H.
    destruct (computeMap _ _ _ _ _ _ _ _) as [mp| |]; try discriminate H. injection H as <-. injection HW as <-. split; [reflexivity|]. split; [reflexivity|].
    cbn. intros Q. apply Hg. now rewrite <- Q.
  Qed.

  (** With energy dispersion bins the image in the file is declared with the
      original number of energy planes, but the table has more. *)
  Theorem C67_planes_refuted : forall resps g nx ny es ue n b f, (2 <= length es)%nat -> List.Forall (fun e => 0 < e) es -> (0 < n)%nat -> (0 < nx)%nat -> (0 < ny)%nat ->
    counts_map resps g nx ny es ue n = Ok b -> writeOutput b = Ok f ->
    length (f_data f) = (nx * ny * length (f_energies f))%nat /\
    let '(n1, n2, n3) := f_dims f in n1 = nx /\ n2 = ny /\ (length (f_energies f) = n3 + 2 * n)%nat /\ (n1 * n2 * n3 < length (f_data f))%nat.
  Proof.
    intros resps g nx ny es ue n b f H2 Hp Hn Hx Hy H HW. destruct (C67_counts resps g nx ny es ue n H2 Hp) as (wide & b' & E & LW & HB & _ & HT & HFa & (LT & _)).
    rewrite HB in H. injection H as ->.
    assert (NE : b_ne b = if ue then length es else (length es - 1)%nat).
    { unfold from_counts_map in HB. cbv zeta in HB. rewrite E in HB. cbn [obind] in HB. destruct ue; cbn [obind fst snd] in HB.
      - destruct (computeMap _ _ _ _ _ _ _ _) as [mp| |]; try discriminate HB. injection HB as <-. reflexivity.
      - destruct (mean_energies wide) as [ms| |]; try discriminate HB. cbn [obind fst snd] in HB. destruct (computeMap _ _ _ _ _ _ _ _) as [mp| |]; try discriminate HB. injection HB as <-. reflexivity. }
    assert (DX : b_nx b = nx /\ b_ny b = ny).
    { unfold from_counts_map in HB. cbv zeta in HB. rewrite E in HB. cbn [obind] in HB. destruct ue; cbn [obind fst snd] in HB.
      - destruct (computeMap _ _ _ _ _ _ _ _) as [mp| |]; try discriminate HB. injection HB as <-. split; reflexivity.
      - destruct (mean_energies wide) as [ms| |]; try discriminate HB. cbn [obind fst snd] in HB. destruct (computeMap _ _ _ _ _ _ _ _) as [mp| |]; try discriminate HB. injection HB as <-. split; reflexivity. }
    unfold writeOutput in HW. destruct (b_label b) as [[nm gal]|]; [|discriminate HW]. injection HW as <-. cbn [f_data f_dims f_energies].
    split; [exact LT|]. destruct DX as (-> & ->). split; [reflexivity|]. split; [reflexivity|].
    assert (LE : length (b_energies b) = (b_ne b + 2 * n)%nat).
    { rewrite NE. destruct ue; [rewrite (HT eq_refl); lia|]. destruct (HFa eq_refl) as (Q & _). lia. }
    split; [exact LE|]. rewrite LT, LE. assert (0 < nx * ny)%nat by nia. nia.
  Qed.

  (** A map read from a file cannot be written again: it has no defined
      coordinate system. *)
  Theorem C67_rewrite_refuted : forall (b : @bexp Name) f, writeOutput b = Ok f -> writeOutput (from_file f) = UB.
  Proof. intros b f H. unfold from_file. destruct (f_dims f) as [[n1 n2] n3]. reflexivity. Qed.
End C67.

(** The nearest energy is not what is found: the first within the tolerance is. *)
Theorem C67_nearest_energy_refuted : exists l x k k' y y', findNearest l x (1 / 100000) = Ok k /\
  nth_error l k = Some y /\ nth_error l k' = Some y' /\ Rabs (x - y') < Rabs (x - y).
Proof.
  exists [1000000; 1000002], 1000003, 0%nat, 1%nat, 1000000, 1000002. split; [|split; [reflexivity|split; [reflexivity|rewrite !Rabs_right by lra; lra]]].
  apply find_close; [lra| |].
  - intros [|[|i]] y H; cbn in H; [injection H as <-; lra|injection H as <-; lra|destruct i; discriminate].
  - split; [exists 1000000; split; [reflexivity|]; unfold close; rewrite Rabs_right by lra; lra|]. intros i y Hi; lia.
Qed.

(** The range of inclinations: a ray at inclination [th] counts exactly when
    it lies between the two limits. *)
Theorem C67_inclination : forall thmin thmax th base phi, 0 <= th <= 180 -> thmin <= 180 -> 0 <= thmax ->
  (thmin <= th <= thmax -> Aeff_value (setCosThetaBounds thmin thmax) base (cos (th * PI / 180)) phi = base (cos (th * PI / 180)) phi) /\
  (th < thmin \/ thmax < th -> Aeff_value (setCosThetaBounds thmin thmax) base (cos (th * PI / 180)) phi = 0).
Proof.
  intros thmin thmax th base phi Ht H1 H2. pose proof PI_RGT_0 as PP.
  assert (MON : forall a b, 0 <= a -> a < b -> b <= 180 -> cos (b * PI / 180) < cos (a * PI / 180)).
  { intros a b Ha Hab Hb.
    assert (PA : forall x, 0 <= x -> 0 <= x * PI / 180) by (intros x Hx; assert (0 <= x * PI) by (apply Rmult_le_pos; lra); lra).
    assert (PB : forall x, x <= 180 -> x * PI / 180 <= PI). { intros x Hx. assert (0 <= (180 - x) * PI) by (apply Rmult_le_pos; lra). lra. }
    apply cos_decreasing_1; try (apply PA; lra); try (apply PB; lra). assert (0 < (b - a) * PI) by (apply Rmult_lt_0_compat; lra). lra. }
  assert (MLE : forall a b, 0 <= a -> a <= b -> b <= 180 -> cos (b * PI / 180) <= cos (a * PI / 180)).
  { intros a b Ha [Hab| ->] Hb; [left; now apply MON|lra]. }
  pose proof (COS_bound (th * PI / 180)) as CB. unfold Aeff_value, setCosThetaBounds. cbn [fst snd]. split.
  - intros (Ha & Hb).
    assert (F1 : Rltb (cos (th * PI / 180)) (if Rltb thmax 180 then cos (thmax * PI / 180) else -1) = false).
    { destruct (Rltb_spec thmax 180); (match goal with |- Rltb ?a ?b = false => destruct (Rltb_spec a b) as [Q|Q] end; [exfalso|reflexivity]); [|lra].
      pose proof (MLE th thmax ltac:(lra) Hb ltac:(lra)). lra. }
    assert (F2 : Rltb (if Rltb 0 thmin then cos (thmin * PI / 180) else 1) (cos (th * PI / 180)) = false).
    { destruct (Rltb_spec 0 thmin); (match goal with |- Rltb ?a ?b = false => destruct (Rltb_spec a b) as [Q|Q] end; [exfalso|reflexivity]); [|lra].
      pose proof (MLE thmin th ltac:(lra) Ha ltac:(lra)). lra. }
    rewrite F1, F2. reflexivity.
  - intros [Ha|Hb].
    + destruct (Rltb_spec 0 thmin); [|lra].
      assert (F2 : Rltb (cos (thmin * PI / 180)) (cos (th * PI / 180)) = true).
      { destruct (Rltb_spec (cos (thmin * PI / 180)) (cos (th * PI / 180))) as [Q|Q]; [reflexivity|]. exfalso. apply Q. apply MON; lra. }
      rewrite F2. now rewrite Bool.orb_true_r.
    + destruct (Rltb_spec thmax 180); [|lra].
      assert (F1 : Rltb (cos (th * PI / 180)) (cos (thmax * PI / 180)) = true).
      { destruct (Rltb_spec (cos (th * PI / 180)) (cos (thmax * PI / 180))) as [Q|Q]; [reflexivity|]. exfalso. apply Q. apply MON; lra. }
      rewrite F1. reflexivity.
Qed.

Print Assumptions C67_map.
Print Assumptions C67_allsky.
Print Assumptions C67_counts.
Print Assumptions C67_find.
Print Assumptions C67_lookup_partial.
Print Assumptions C67_directions.
Print Assumptions C67_bounds.
Print Assumptions C67_wrap_refuted.
Print Assumptions C67_nearest_pixel_refuted.
Print Assumptions C67_edge_refuted.
Print Assumptions C67_roundtrip_partial.
Print Assumptions C67_rotation_refuted.
Print Assumptions C67_reference_refuted.
Print Assumptions C67_planes_refuted.
Print Assumptions C67_rewrite_refuted.
Print Assumptions C67_nearest_energy_refuted.
Print Assumptions C67_inclination.

(** A map of three by two pixels at one energy on a plane whose directions are
    their coordinates; the exposure grows along a row.  Directions at 1.9 get
    the first pixel, directions at 4 (off the map) the first of the next row. *)
Example C67_case : exists b, from_pars (fun _ x y => Some (x, y)) (fun (d : R * R) (r : R) e => r * fst d + 10 * snd d) [1; 2] [100] 3 2 1 0 0 0 tt false = Ok b /\
  @made unit (R * R) R (fun _ x y => Some (x, y)) (fun d r e => r * fst d + 10 * snd d) [1; 2] b /\
  lookup (fun _ d => d) b 100 (19 / 10, 1) = Ok 23 /\
  lookup (fun _ d => d) b 100 (2, 1) = Ok 26 /\
  lookup (fun _ d => d) b 100 (4, 1) = Ok 43 /\
  get_exposures_for_dir (fun _ d => d) b (4, 1) [100] = Ok [0].
Proof.
  destruct (C67_map (fun (_ : @geometry unit) x y => Some (x, y)) (fun (d : R * R) (r : R) (e : R) => r * fst d + 10 * snd d) [1; 2] [100] 3 2 1 0 0 0 tt false) as (b & E & E1 & E2 & E3 & _).
  exists b. split; [exact E|]. pose proof (made_pars _ _ _ _ _ _ _ _ _ _ _ _ _ E) as M. split; [exact M|].
  assert (S : selects (1 / 100000) (b_energies b) 100 0).
  { rewrite E1. left. split; [exists 100; split; reflexivity|intros i y Hi; lia]. }
  assert (K : nth_error (b_energies b) 0 = Some 100) by (rewrite E1; reflexivity).
  assert (B : (Z.of_nat (b_nx b) * Z.of_nat (b_ny b) * Z.of_nat (length (b_energies b)) <= 2 ^ 32)%Z) by (rewrite E1, E2, E3; cbv; discriminate).
  split; [|split].
  - rewrite (C67_lookup_partial _ (fun _ d => d) _ _ b 100 0 100 (19 / 10, 1) 0 0 M B S K); [|unfold at_pixel; cbn [fst INR]; lra|unfold at_pixel; cbn [snd INR]; lra|lia|lia].
    f_equal. unfold pixel_exposure, exposure. cbn [fold_right fst snd INR]. lra.
  - rewrite (C67_lookup_partial _ (fun _ d => d) _ _ b 100 0 100 (2, 1) 1 0 M B S K); [|unfold at_pixel; cbn [fst INR]; lra|unfold at_pixel; cbn [snd INR]; lra|lia|lia].
    f_equal. unfold pixel_exposure, exposure. cbn [fold_right fst snd INR]. lra.
  - assert (EF : b_enforce b = false).
    { revert E. clear. unfold from_pars. cbv zeta. destruct (computeMap _ _ _ _ _ _ _ _); intros E; [|discriminate E..]. injection E as <-. reflexivity. }
    destruct (C67_wrap_refuted _ (fun _ d => d) _ _ b 100 0 100 (4, 1) 0 M EF ltac:(lia) B S K) as (_ & Q1 & Q2).
    + rewrite E2. unfold at_pixel. cbn [fst INR]. lra.
    + unfold at_pixel. cbn [snd INR]. lra.
    + lia.
    + split; [|exact Q2]. rewrite Q1. f_equal. unfold pixel_exposure, exposure. cbn [fold_right fst snd INR]. lra.
Qed.

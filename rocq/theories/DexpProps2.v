(** C176: where the exposure of a diffuse source fails; concrete cases of C76. *)
From Coq Require Import Reals Lra Psatz.
From Verif Require Import Base AccumModel AccumProofs EvtModel DexpSpec DexpModel DexpProofs DexpProofs2 DexpProps.
From Verif Require MpsfProofs WmapModel.
Local Open Scope R_scope.

(** An exposure map of one pixel, for the examples: energies, exposures at them. *)
Definition one_pixel (es ys : list R) : expmap unit :=
  {| em_have := true; em_ra := [0]; em_dec := [0]; em_solid := [1]; em_energies := es; em_planes := map (fun y => [y]) ys;
     em_at := fun _ k => nth k ys 0; em_within := fun _ => true |}.
(** A map cube of one pixel with value 1. *)
Definition one_cube : wcsmap unit :=
  {| wm_nx := 1; wm_ny := 1; wm_dir := fun _ _ => tt; wm_solid := [[1]]; wm_image := [[[1]]]; wm_value := fun _ _ => Ok 1 |}.

Lemma ln2_pos : 0 < ln 2. Proof. rewrite <- ln_1. apply ln_increasing; lra. Qed.
Lemma ln4 : ln 4 = 2 * ln 2.
Proof. replace 4 with (2 * 2) by ring. rewrite ln_mult by lra. ring. Qed.

Lemma pix_one e0 e1 y0 y1 e : 0 < e -> 0 < e0 -> e0 < e1 ->
  pixel_exposure unit (one_pixel [e0; e1] [y0; y1]) 1 0 e = Ok ((ln e - ln e0) / (ln e1 - ln e0) * (y1 - y0) + y0).
Proof.
  intros H H0 H1. unfold pixel_exposure. cbn [em_energies one_pixel vec_get nth_error obind].
  rewrite div_ok by lra. cbn [obind]. rewrite log_ok by (apply Rdiv_lt_0_compat; lra). cbn [obind].
  rewrite div_ok by lra. cbn [obind]. rewrite log_ok by (apply Rdiv_lt_0_compat; lra). cbn [obind].
  rewrite !ln_div_pos by lra. pose proof (ln_increasing _ _ H0 H1). rewrite div_ok by lra. reflexivity.
Qed.

Lemma one_pixel_value e0 e1 y0 y1 e f : 0 < e -> 0 < e0 -> e0 < e1 ->
  integrateSpatialDist unit (fun _ _ => tt) (one_pixel [e0; e1] [y0; y1]) [e] f = Ok [((ln e - ln e0) / (ln e1 - ln e0) * (y1 - y0) + y0) * f tt e * 1].
Proof.
  intros H H0 H1. unfold integrateSpatialDist. cbn [mfold]. change (em_energies unit (one_pixel [e0; e1] [y0; y1])) with [e0; e1].
  assert (G : energy_grid [e0; e1]). { split; [simpl; lia|]. split; [simpl; lra|]. intros [|i] Hi; simpl in *; [lra|lia]. }
  assert (B : bracket [e0; e1] e 0). { split; [simpl; lia|]. split; [now right|]. right. reflexivity. }
  rewrite (upper_plane_ok _ _ 0 G B). cbn [obind em_ra one_pixel length seq mfold]. rewrite pix_one by lra. cbn [obind em_dec em_solid vec_get nth_error].
  cbn [one_pixel em_dec em_solid vec_get nth_error obind mfold app]. do 2 f_equal. ring.
Qed.

(** An exposure outside the energy range of the map, where all exposures are positive, can be negative. *)
Theorem C76_negative_refuted : exists (m : expmap unit) e v, complete unit m 1 /\ energy_grid (em_energies _ m) /\ 0 < e /\
  (forall i j, (i < 2)%nat -> (j < 1)%nat -> 0 < entry (em_planes _ m) i j) /\
  integrateSpatialDist unit (fun _ _ => tt) m [e] (fun _ _ => 1) = Ok [v] /\ v < 0.
Proof.
  exists (one_pixel [2; 4] [1; 3]), 1, (-1). split; [|split; [|split; [lra|split; [|split; [|lra]]]]].
  - repeat split; try reflexivity. intros [|[|i]] Hi; try reflexivity. simpl in Hi. lia.
  - split; [simpl; lia|]. split; [simpl; lra|]. intros [|i] Hi; simpl in *; [lra|lia].
  - intros [|[|i]] [|j] Hi Hj; try lia; unfold entry; simpl; lra.
  - rewrite one_pixel_value by lra. rewrite ln_1, ln4. pose proof ln2_pos. do 2 f_equal. field. lra.
Qed.

(** With an exposure map of a single energy neither way of integrating is defined. *)
Theorem C76_single_energy_refuted (Dir : Type) (skydir : R -> R -> Dir) (m : expmap Dir) n f e es :
  complete Dir m n -> (0 < n)%nat -> length (em_energies _ m) = 1%nat ->
  integrateSpatialDist Dir skydir m (e :: es) f = UB /\
  forall (w : wcsmap Dir) x, table (wm_nx _ w) (wm_ny _ w) (wm_solid _ w) ->
    (forall i j d, wm_dir _ w (S i) (S j) = d -> wm_value _ w d (nth 0 (em_energies _ m) 0) = Ok (x i j)) ->
    snd (mapcube_wcs Dir w m (e :: es)) = UB.
Proof.
  intros (C1 & C2 & C3 & C4 & C5) Hn H1. destruct (em_energies Dir m) as [|e0 [|]] eqn:EE; [discriminate| |discriminate]. split.
  - unfold integrateSpatialDist. cbn [mfold]. rewrite EE.
    assert (K : exists kk, upper_plane [e0] e = Ok kk /\ (kk = 0 \/ kk = 1)%nat).
    { unfold upper_plane. cbn [vec_get nth_error obind back length Nat.sub]. destruct (Rltb_spec e e0); [exists 1%nat; auto|].
      cbn [obind]. destruct (Rleb_spec e0 e); [exists 0%nat; auto|lra]. }
    destruct K as (kk & -> & Hk). cbn [obind]. rewrite C1. destruct n as [|n]; [lia|]. cbn [seq mfold].
    assert (P : pixel_exposure Dir m kk 0 e = UB).
    { unfold pixel_exposure. destruct Hk as [-> | ->]; [reflexivity|]. rewrite EE. reflexivity. }
    rewrite P. reflexivity.
  - intros w x T HV. unfold mapcube_wcs, via_planes. rewrite EE. cbn [length seq mfold vec_get nth_error obind].
    rewrite (wcs_sum_ok Dir w m 0 _ x T) by (intros i j _ _ _; apply (HV i j); reflexivity). cbn [obind app].
    cbn [resample]. unfold at_energy. cbn [front vec_get nth_error obind]. destruct (Rleb_spec e e0); [reflexivity|].
    cbn [back length Nat.sub vec_get nth_error obind]. destruct (Rleb_spec e0 e); [reflexivity|lra].
Qed.

(** If a source's total is zero at one energy of the exposure map and positive at the next, integrating over its own map
    throws for every energy in between. *)
Theorem C76_zero_plane_refuted (Dir : Type) (w : wcsmap Dir) (m : expmap Dir) (x : nat -> nat -> nat -> R) e i :
  table (wm_nx _ w) (wm_ny _ w) (wm_solid _ w) -> energy_grid (em_energies _ m) ->
  (forall k i j, (k < length (em_energies _ m))%nat -> (i < wm_nx _ w)%nat -> (j < wm_ny _ w)%nat ->
     em_within _ m (wm_dir _ w (S i) (S j)) = true -> wm_value _ w (wm_dir _ w (S i) (S j)) (nth k (em_energies _ m) 0) = Ok (x k i j)) ->
  bracket (em_energies _ m) e i -> total Dir w m (x i) i = 0 -> 0 < total Dir w m (x (S i)) (S i) ->
  snd (mapcube_wcs Dir w m [e]) = Throw.
Proof.
  intros T H HV B Z P. unfold mapcube_wcs. rewrite (via_planes_eq Dir m _ (fun k => total Dir w m (x k) k)).
  2:{ intros k Hk. apply wcs_sum_ok; [exact T|]. intros a j Ha Hj Hw. now apply HV. }
  cbn [resample]. rewrite (at_energy_index _ _ e i H B) by now rewrite map_length, seq_length.
  pose proof B as (B1 & _). rewrite !MpsfProofs.nth_mapseq by lia. rewrite Z. unfold interpolatePowerLaw.
  destruct (Reqb_spec (total Dir w m (x (S i)) (S i)) 0); [lra|]. rewrite andb_false_r.
  destruct (Rleb_spec 0 0); [|lra]. rewrite !orb_true_r. reflexivity.
Qed.

Lemma cube_two e0 e1 y0 y1 e : 0 < e -> 0 < e0 -> e0 < e1 -> 0 < y0 -> 0 < y1 ->
  mapcube_wcs unit one_cube (one_pixel [e0; e1] [y0; y1]) [e] = ([y0 * exp ((ln y1 - ln y0) / (ln e1 - ln e0) * (ln e - ln e0))], Ok tt).
Proof.
  intros H H0 H1 Y0 Y1. unfold mapcube_wcs.
  rewrite (via_planes_eq unit _ _ (fun k => 0 + 1 * 1 * nth k [y0; y1] 0)).
  2:{ intros k Hk. unfold wcs_sum. cbn. do 3 f_equal; ring. }
  change (em_energies unit (one_pixel [e0; e1] [y0; y1])) with [e0; e1]. cbn [length seq map nth].
  assert (G : energy_grid [e0; e1]). { split; [simpl; lia|]. split; [simpl; lra|]. intros [|i] Hi; simpl in *; [lra|lia]. }
  assert (B : bracket [e0; e1] e 0). { split; [simpl; lia|]. split; [now right|]. right. reflexivity. }
  cbn [resample]. rewrite (at_energy_index _ _ e 0 G B) by reflexivity. cbn [nth].
  replace (0 + 1 * 1 * y0) with y0 by ring. replace (0 + 1 * 1 * y1) with y1 by ring.
  unfold interpolatePowerLaw. destruct (Reqb_spec y0 0); [lra|]. cbn [andb].
  destruct (Rleb_spec e0 0); [lra|]. destruct (Rleb_spec e1 0); [lra|]. destruct (Rleb_spec y0 0); [lra|]. destruct (Rleb_spec y1 0); [lra|]. cbn [orb].
  rewrite log_ok by (apply Rdiv_lt_0_compat; lra). cbn [obind]. rewrite log_ok by (apply Rdiv_lt_0_compat; lra). cbn [obind].
  rewrite !ln_div_pos by lra. pose proof (ln_increasing _ _ H0 H1). rewrite div_ok by lra. cbn [obind].
  destruct (Rltb_spec 0 (e / e0)) as [K|K]; [|exfalso; apply K; apply Rdiv_lt_0_compat; lra].
  cbn [app]. unfold Rpower. rewrite ln_div_pos by lra. reflexivity.
Qed.

(** The normalisation of a map cube is part of its value, but integrating over its map ignores it: the predicted counts
    of a cube with normalisation c depend on c with one way of integrating and not with the other. *)
Theorem C76_prefactor_refuted : exists (m : expmap unit) (w : wcsmap unit) s, energy_grid (em_energies _ m) /\ complete unit m 1 /\
  forall c, mapcube_value unit w c tt 1 = Ok c /\
    ds_exposure (fst (computeExposure unit (fun _ _ => tt) m false (mapcube_source unit w c) s [1])) = [c] /\
    ds_exposure (fst (computeExposure unit (fun _ _ => tt) m true (mapcube_source unit w c) s [1])) = [1].
Proof.
  exists (one_pixel [1; 2] [1; 1]), one_cube, {| ds_energies := []; ds_exposure := []; ds_loaded := true |}. split; [|split].
  - split; [simpl; lia|]. split; [simpl; lra|]. intros [|i] Hi; simpl in *; [lra|lia].
  - repeat split; try reflexivity. intros [|[|i]] Hi; try reflexivity. simpl in Hi. lia.
  - intros c. split; [|split].
    + unfold mapcube_value. cbn. f_equal. ring.
    + unfold computeExposure. cbn [em_have one_pixel]. change ({| em_have := true; em_ra := [0]; em_dec := [0]; em_solid := [1]; em_energies := [1; 2];
        em_planes := map (fun y => [y]) [1; 1]; em_at := fun _ k => nth k [1; 1] 0; em_within := fun _ => true |}) with (one_pixel [1; 2] [1; 1]).
      rewrite one_pixel_value by lra. cbn. pose proof ln2_pos. f_equal. rewrite ln_1. field. lra.
    + unfold computeExposure. cbn [em_have one_pixel sp_map mapcube_source]. change ({| em_have := true; em_ra := [0]; em_dec := [0]; em_solid := [1]; em_energies := [1; 2];
        em_planes := map (fun y => [y]) [1; 1]; em_at := fun _ k => nth k [1; 1] 0; em_within := fun _ => true |}) with (one_pixel [1; 2] [1; 1]).
      rewrite cube_two by lra. cbn. f_equal. rewrite Rminus_diag_eq by reflexivity. unfold Rdiv. rewrite Rmult_0_l, Rmult_0_l, exp_0. ring.
Qed.

(** Between the energies of the exposure map the two ways differ: one pixel, exposures 1 and 4 at energies 1 and 4. *)
Theorem C76_two_ways_refuted : exists (m : expmap unit) (w : wcsmap unit) s, energy_grid (em_energies _ m) /\ complete unit m 1 /\
    ds_exposure (fst (computeExposure unit (fun _ _ => tt) m false (mapcube_source unit w 1) s [2])) = [5 / 2] /\
    ds_exposure (fst (computeExposure unit (fun _ _ => tt) m true (mapcube_source unit w 1) s [2])) = [2].
Proof.
  exists (one_pixel [1; 4] [1; 4]), one_cube, {| ds_energies := []; ds_exposure := []; ds_loaded := true |}. split; [|split; [|split]].
  - split; [simpl; lia|]. split; [simpl; lra|]. intros [|i] Hi; simpl in *; [lra|lia].
  - repeat split; try reflexivity. intros [|[|i]] Hi; try reflexivity. simpl in Hi. lia.
  - unfold computeExposure. cbn [em_have one_pixel]. change ({| em_have := true; em_ra := [0]; em_dec := [0]; em_solid := [1]; em_energies := [1; 4];
        em_planes := map (fun y => [y]) [1; 4]; em_at := fun _ k => nth k [1; 4] 0; em_within := fun _ => true |}) with (one_pixel [1; 4] [1; 4]).
    rewrite one_pixel_value by lra. cbn. pose proof ln2_pos. f_equal. rewrite ln_1, ln4. field. lra.
  - unfold computeExposure. cbn [em_have one_pixel sp_map mapcube_source]. change ({| em_have := true; em_ra := [0]; em_dec := [0]; em_solid := [1]; em_energies := [1; 4];
        em_planes := map (fun y => [y]) [1; 4]; em_at := fun _ k => nth k [1; 4] 0; em_within := fun _ => true |}) with (one_pixel [1; 4] [1; 4]).
    rewrite cube_two by lra. cbn. f_equal. rewrite ln_1, ln4. pose proof ln2_pos.
    replace ((2 * ln 2 - 0) / (2 * ln 2 - 0) * (ln 2 - 0)) with (ln 2) by (field; lra). rewrite exp_ln by lra. ring.
Qed.

(** A HEALPix template of one plane is given the energy 100 (HealpixProjMap.cxx 151).  Integrating it on an exposure map
    that starts at any other energy reads a plane that does not exist. *)
Theorem C76_flat_healpix_refuted (Dir : Type) (h : hpmap Dir) (m : expmap Dir) energies :
  hm_energies _ h = [100] -> hm_nplanes _ h = 1%nat -> (0 < hm_n _ h)%nat -> em_within _ m (hm_dir _ h 0) = true ->
  energy_grid (em_energies _ m) -> nth 0 (em_energies _ m) 0 <> 100 ->
  (exists v, hp_value Dir h (hm_dir _ h 0) (-1) = Ok v) /\ snd (healpix_dist Dir h m energies) = UB.
Proof.
  intros HE HN Hn HW G HX. split.
  - exists (hm_at _ h (hm_dir _ h 0) 0). unfold hp_value, hp_plane. rewrite HE, HN. destruct (Rltb_spec (-1) 0); [|lra]. cbn.
    destruct (Reqb_spec 100 100); [reflexivity|lra].
  - destruct G as (L & P & _). destruct (em_energies Dir m) as [|e0 es] eqn:EE; [simpl in L; lia|]. simpl in P, HX.
    unfold healpix_dist, via_planes. rewrite EE. cbn [length seq mfold vec_get nth_error obind].
    destruct (hm_n Dir h) as [|n]; [lia|]. cbn [seq mfold]. rewrite HW.
    assert (V : hp_value Dir h (hm_dir Dir h 0) e0 = UB).
    { unfold hp_value, hp_plane. rewrite HE, HN. destruct (Rltb_spec e0 0); [lra|]. cbn. destruct (Reqb_spec e0 100); [lra|reflexivity]. }
    rewrite V. reflexivity.
Qed.

(** A calculation that throws leaves the source with the new energies and fewer exposures, although the same source and
    map work with the other way of integrating. *)
Theorem C76_failed_refuted : exists (m : expmap unit) (w : wcsmap unit) s, energy_grid (em_energies _ m) /\
  length (ds_energies s) = length (ds_exposure s) /\
  (let r := computeExposure unit (fun _ _ => tt) m true (mapcube_source unit w 1) s [1; 4] in
   snd r = Throw /\ length (ds_energies (fst r)) = 2%nat /\ length (ds_exposure (fst r)) = 1%nat) /\
  snd (computeExposure unit (fun _ _ => tt) m false (mapcube_source unit w 1) s [1; 4]) = Ok tt.
Proof.
  exists (one_pixel [1; 2; 4] [1; 1; 0]), one_cube, {| ds_energies := []; ds_exposure := []; ds_loaded := true |}.
  assert (G : energy_grid [1; 2; 4]). { split; [simpl; lia|]. split; [simpl; lra|]. intros [|[|i]] Hi; simpl in *; try lra; lia. }
  split; [exact G|]. split; [reflexivity|].
  assert (W : complete unit (one_pixel [1; 2; 4] [1; 1; 0]) 1).
  { repeat split; try reflexivity. intros [|[|[|i]]] Hi; try reflexivity. simpl in Hi. lia. }
  split.
  - assert (E : exists v, mapcube_wcs unit one_cube (one_pixel [1; 2; 4] [1; 1; 0]) [1; 4] = ([v], Throw)).
    { unfold mapcube_wcs. rewrite (via_planes_eq unit _ _ (fun k => 0 + 1 * 1 * nth k [1; 1; 0] 0)).
      2:{ intros k Hk. unfold wcs_sum. cbn. do 3 f_equal; ring. }
      change (em_energies unit (one_pixel [1; 2; 4] [1; 1; 0])) with [1; 2; 4]. cbn [length seq map nth].
      assert (B : bracket [1; 2; 4] 1 0). { split; [simpl; lia|]. split; [now right|]. left. simpl. lra. }
      assert (B2 : bracket [1; 2; 4] 4 1). { split; [simpl; lia|]. split; [left; simpl; lra|]. right. reflexivity. }
      cbn [resample]. rewrite (at_energy_index _ _ 1 0 G B), (at_energy_index _ _ 4 1 G B2) by reflexivity. cbn [nth].
      destruct (power_ok 1 1 2 (0 + 1 * 1 * 1) (0 + 1 * 1 * 1)) as (y & -> & _); try lra.
      cbn [app]. unfold interpolatePowerLaw. destruct (Reqb_spec (0 + 1 * 1 * 1) 0); [lra|]. cbn [andb].
      destruct (Rleb_spec 2 0); [lra|]. destruct (Rleb_spec 4 0); [lra|]. destruct (Rleb_spec (0 + 1 * 1 * 1) 0); [lra|].
      destruct (Rleb_spec (0 + 1 * 1 * 0) 0); [|lra]. exists y. reflexivity. }
    destruct E as (v & E). unfold computeExposure. cbn [em_have one_pixel sp_map mapcube_source].
    change ({| em_have := true; em_ra := [0]; em_dec := [0]; em_solid := [1]; em_energies := [1; 2; 4];
        em_planes := map (fun y => [y]) [1; 1; 0]; em_at := fun _ k => nth k [1; 1; 0] 0; em_within := fun _ => true |}) with (one_pixel [1; 2; 4] [1; 1; 0]).
    rewrite E. repeat split.
  - unfold computeExposure. cbn [em_have one_pixel].
    change ({| em_have := true; em_ra := [0]; em_dec := [0]; em_solid := [1]; em_energies := [1; 2; 4];
        em_planes := map (fun y => [y]) [1; 1; 0]; em_at := fun _ k => nth k [1; 1; 0] 0; em_within := fun _ => true |}) with (one_pixel [1; 2; 4] [1; 1; 0]).
    destruct (C76_exposure unit (fun _ _ => tt) (one_pixel [1; 2; 4] [1; 1; 0]) 1 (sp_value unit (mapcube_source unit one_cube 1)) [1; 4] W G) as (v & E & _).
    + intros [|[|k]] Hk; simpl in *; try lra; lia.
    + rewrite E. reflexivity.
Qed.

(** ** Concrete cases *)

(** Hypotheses of C76_exposure, C76_linear, C76_nonneg, C76_at_plane. *)
Example C76_case_map : let m := one_pixel [1; 4] [1; 4] in
  complete unit m 1 /\ energy_grid (em_energies _ m) /\ positive [1; 2; 4] /\
  integrateSpatialDist unit (fun _ _ => tt) m [2] (fun _ _ => 10) = Ok [25].
Proof.
  cbv zeta. split; [|split; [|split]].
  - repeat split; try reflexivity. intros [|[|i]] Hi; try reflexivity. simpl in Hi. lia.
  - split; [simpl; lia|]. split; [simpl; lra|]. intros [|i] Hi; simpl in *; [lra|lia].
  - intros [|[|[|k]]] Hk; simpl in *; try lra; lia.
  - rewrite one_pixel_value by lra. pose proof ln2_pos. do 2 f_equal. rewrite ln_1, ln4. field. lra.
Qed.

(** Hypotheses of C76_map_cube and C76_spatial_map. *)
Example C76_case_cube : let m := one_pixel [1; 4] [1; 4] in
  table 1 1 (wm_solid _ one_cube) /\ nth_error (wm_image _ one_cube) 0 = Some [[1]] /\
  (forall k, (k < 2)%nat -> 0 < total unit one_cube m (fun _ _ => 1) k) /\ mapcube_wcs unit one_cube m [2] = ([2], Ok tt).
Proof.
  cbv zeta. split; [|split; [reflexivity|split]].
  - split; [reflexivity|]. intros [|i] Hi; [reflexivity|lia].
  - intros [|[|k]] Hk; unfold total; cbn; try lra; lia.
  - rewrite cube_two by lra. rewrite ln_1, ln4. pose proof ln2_pos. do 2 f_equal.
    replace ((2 * ln 2 - 0) / (2 * ln 2 - 0) * (ln 2 - 0)) with (ln 2) by (field; lra). rewrite exp_ln by lra. ring.
Qed.

(** Hypotheses of C76_computed, C76_parts and C76_write_read. *)
Example C76_case_compute : let expo := fun (_ : unit) (es : list R) => map (fun e => 10 * e) es in
  (forall d es, length (expo d es) = length es) /\
  exists mf, computeMap unit (fun _ _ _ _ _ _ => tt) expo (fun x => x) 100 1000 20 4 6 3 true 1 3 2 4 = Ok mf /\ length (mf_image mf) = 72%nat /\
    nth (2 * 24 + (2 * 4 + 1)) (mf_image mf) 0 = 10000 /\ nth (2 * 24 + (2 * 4 + 0)) (mf_image mf) 0 = 0.
Proof.
  cbv zeta. assert (X : forall (d : unit) (es : list R), length (map (fun e => 10 * e) es) = length es) by (intros; apply map_length).
  split; [exact X|].
  destruct (C76_computed unit (fun _ _ _ _ _ _ => tt) (fun _ es => map (fun e => 10 * e) es) (fun x => x) 100 1000 20 4 6 3 true 1 3 2 4 ltac:(lra) ltac:(lia) ltac:(lia) ltac:(lia) X)
    as (mf & dx & dy & E & _ & L & LE & _ & _ & EL & _ & _ & _ & G).
  exists mf. split; [exact E|]. split; [exact L|]. split.
  - destruct (G 1%nat 2%nat 2%nat ltac:(lia) ltac:(lia) ltac:(lia)) as (G1 & _).
    change (2 * 24 + (2 * 4 + 1))%nat with (2 * (6 * 4) + (2 * 4 + 1))%nat. rewrite G1 by (intros _; lia).
    rewrite (nth_indep _ 0 (10 * 0)) by (rewrite map_length; lia). rewrite (map_nth (fun e => 10 * e)). change 2%nat with (3 - 1)%nat. rewrite EL. lra.
  - destruct (G 0%nat 2%nat 2%nat ltac:(lia) ltac:(lia) ltac:(lia)) as (_ & G2). apply G2. intros K. specialize (K eq_refl). lia.
Qed.

(** Hypotheses of C76_read and C76_short_image. *)
Example C76_case_file : let f := {| ef_ra := [0; 1]; ef_dec := [0; 0]; ef_energies := [1; 4]; ef_solid := [1; 1]; ef_image := [1; 2; 3; 4];
                                    ef_at := fun (_ : unit) _ => 1; ef_within := fun _ => true |} in
  exists m, readExposureFile unit f = Ok m /\ em_planes _ m = [[1; 2]; [3; 4]].
Proof. cbv zeta. eexists. split; reflexivity. Qed.

Print Assumptions C76_exposure.
Print Assumptions C76_at_plane.
Print Assumptions C76_linear.
Print Assumptions C76_nonneg.
Print Assumptions C76_map_cube.
Print Assumptions C76_spatial_map.
Print Assumptions C76_power_law_ends.
Print Assumptions C76_source.
Print Assumptions C76_no_map.
Print Assumptions C76_read.
Print Assumptions C76_short_image.
Print Assumptions C76_computed.
Print Assumptions C76_parts.
Print Assumptions C76_write_read.
Print Assumptions C76_centre.
Print Assumptions C76_odd_refuted.
Print Assumptions C76_one_refuted.
Print Assumptions C76_negative_refuted.
Print Assumptions C76_single_energy_refuted.
Print Assumptions C76_zero_plane_refuted.
Print Assumptions C76_prefactor_refuted.
Print Assumptions C76_two_ways_refuted.
Print Assumptions C76_flat_healpix_refuted.
Print Assumptions C76_failed_refuted.

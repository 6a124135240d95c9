(** C76: the exposure of diffuse sources in an unbinned analysis.  C176: where it fails. *)
From Coq Require Import Reals Lra Psatz.
From Verif Require Import Base AccumModel AccumProofs EvtModel DexpSpec DexpModel DexpProofs DexpProofs2.
From Verif Require MpsfProofs WmapModel.
Local Open Scope R_scope.

Section D.
Variable Dir : Type.
Variable skydir : R -> R -> Dir.

(** A complete exposure map of n pixels: coordinates and solid angle of each, and one plane per energy. *)
Definition complete (m : expmap Dir) (n : nat) : Prop :=
  length (em_ra _ m) = n /\ length (em_dec _ m) = n /\ length (em_solid _ m) = n /\
  table (length (em_energies _ m)) n (em_planes _ m).
Definition positive (l : list R) : Prop := forall k, (k < length l)%nat -> 0 < nth k l 0.
(** The direction of pixel j. *)
Definition pixdir (m : expmap Dir) (j : nat) : Dir := skydir (nth j (em_ra _ m) 0) (nth j (em_dec _ m) 0).

(** For every complete map and all positive energies: the exposure of a source with spatial distribution f is the sum
    over the pixels of f times the solid angle times an exposure on the line, in the logarithm of the energy, through
    the two enclosing planes. *)
Theorem C76_exposure (m : expmap Dir) n f energies : complete m n -> energy_grid (em_energies _ m) -> positive energies ->
  exists v, integrateSpatialDist Dir skydir m energies f = Ok v /\ length v = length energies /\
    forall k, (k < length energies)%nat -> exists i x, bracket (em_energies _ m) (nth k energies 0) i /\
      (forall j, (j < n)%nat -> log_line (nth i (em_energies _ m) 0) (nth (S i) (em_energies _ m) 0)
          (entry (em_planes _ m) i j) (entry (em_planes _ m) (S i) j) (nth k energies 0) (x j)) /\
      nth k v 0 = sum n (fun j => x j * f (pixdir m j) (nth k energies 0) * nth j (em_solid _ m) 0).
Proof.
  intros W H HE. destruct (integrate_ok Dir skydir m n f energies W H HE) as (v & E & L & G). exists v. split; [exact E|]. split; [exact L|].
  intros k Hk. destruct (bracket_exists _ (nth k energies 0) H) as (i & B). exists i, (fun j => pixval Dir m i j (nth k energies 0)).
  split; [exact B|]. split; [|now apply G]. intros j Hj. apply pixval_line; [exact H|now apply HE|apply B].
Qed.

(** At an energy of the map the plane itself is used. *)
Theorem C76_at_plane (m : expmap Dir) n f energies k p : complete m n -> energy_grid (em_energies _ m) -> positive energies ->
  (k < length energies)%nat -> (p < length (em_energies _ m))%nat -> nth k energies 0 = nth p (em_energies _ m) 0 ->
  exists v, integrateSpatialDist Dir skydir m energies f = Ok v /\
    nth k v 0 = sum n (fun j => entry (em_planes _ m) p j * f (pixdir m j) (nth k energies 0) * nth j (em_solid _ m) 0).
Proof.
  intros W H HE Hk Hp Ek. destruct (integrate_ok Dir skydir m n f energies W H HE) as (v & E & L & G). exists v. split; [exact E|].
  destruct (bracket_exists _ (nth k energies 0) H) as (i & B). rewrite (G k i Hk B). rewrite Ek in *. now apply value_at_grid.
Qed.

(** The exposure is linear in the spatial distribution. *)
Theorem C76_linear (m : expmap Dir) n f g c energies : complete m n -> energy_grid (em_energies _ m) -> positive energies ->
  exists u v w, integrateSpatialDist Dir skydir m energies f = Ok u /\ integrateSpatialDist Dir skydir m energies g = Ok v /\
    integrateSpatialDist Dir skydir m energies (fun d e => f d e + c * g d e) = Ok w /\
    forall k, (k < length energies)%nat -> nth k w 0 = nth k u 0 + c * nth k v 0.
Proof.
  intros W H HE. destruct (integrate_ok Dir skydir m n f energies W H HE) as (u & E1 & L1 & G1).
  destruct (integrate_ok Dir skydir m n g energies W H HE) as (v & E2 & L2 & G2).
  destruct (integrate_ok Dir skydir m n (fun d e => f d e + c * g d e) energies W H HE) as (w & E3 & L3 & G3).
  exists u, v, w. split; [exact E1|]. split; [exact E2|]. split; [exact E3|]. intros k Hk.
  destruct (bracket_exists _ (nth k energies 0) H) as (i & B). rewrite (G1 k i Hk B), (G2 k i Hk B), (G3 k i Hk B).
  unfold value_at. rewrite <- sum_lin. apply sum_ext. intros j Hj. ring.
Qed.

(** Inside the energy range of the map the exposure is not negative. *)
Theorem C76_nonneg (m : expmap Dir) n f energies : complete m n -> energy_grid (em_energies _ m) ->
  (forall k, (k < length energies)%nat -> nth 0 (em_energies _ m) 0 <= nth k energies 0 <= nth (length (em_energies _ m) - 1) (em_energies _ m) 0) ->
  (forall i j, (i < length (em_energies _ m))%nat -> (j < n)%nat -> 0 <= entry (em_planes _ m) i j) ->
  (forall j, (j < n)%nat -> 0 <= nth j (em_solid _ m) 0) -> (forall d e, 0 <= f d e) ->
  exists v, integrateSpatialDist Dir skydir m energies f = Ok v /\ forall k, (k < length energies)%nat -> 0 <= nth k v 0.
Proof.
  intros W H HE HP HS Hf.
  assert (HE' : positive energies). { intros k Hk. pose proof (HE k Hk). destruct H as (_ & H & _). lra. }
  destruct (integrate_ok Dir skydir m n f energies W H HE') as (v & E & L & G). exists v. split; [exact E|]. intros k Hk.
  destruct (bracket_exists _ (nth k energies 0) H) as (i & B). rewrite (G k i Hk B). pose proof B as (B1 & B2 & B3).
  apply sum_nonneg. intros j Hj. apply Rmult_le_pos; [|now apply HS]. apply Rmult_le_pos; [|apply Hf].
  apply pixval_nonneg; try (apply HP; lia); auto. split.
  - destruct B2 as [B2| ->]; [exact B2|]. apply HE, Hk.
  - destruct B3 as [B3|B3]; [lra|]. replace (S i) with (length (em_energies Dir m) - 1)%nat by lia. apply HE, Hk.
Qed.

(** ** Quadrature over the map of the source *)

(** Solid angle times map value times exposure, summed over the pixels of the source's map inside the exposure map. *)
Definition total (w : wcsmap Dir) (m : expmap Dir) (x : nat -> nat -> R) (k : nat) : R :=
  sum (wm_nx _ w) (fun i => sum (wm_ny _ w) (fun j =>
    if em_within _ m (wm_dir _ w (S i) (S j)) then entry (wm_solid _ w) i j * x i j * em_at _ m (wm_dir _ w (S i) (S j)) k else 0)).

(** For a map cube whose values exist: on each energy of the exposure map the exposure is the total over its pixels, and
    any other energy lies on the power law through the two enclosing ones. *)
Theorem C76_map_cube (w : wcsmap Dir) (m : expmap Dir) (x : nat -> nat -> nat -> R) energies :
  table (wm_nx _ w) (wm_ny _ w) (wm_solid _ w) -> energy_grid (em_energies _ m) -> positive energies ->
  (forall k i j, (k < length (em_energies _ m))%nat -> (i < wm_nx _ w)%nat -> (j < wm_ny _ w)%nat ->
     em_within _ m (wm_dir _ w (S i) (S j)) = true -> wm_value _ w (wm_dir _ w (S i) (S j)) (nth k (em_energies _ m) 0) = Ok (x k i j)) ->
  (forall k, (k < length (em_energies _ m))%nat -> 0 < total w m (x k) k) ->
  exists v, mapcube_wcs Dir w m energies = (v, Ok tt) /\ length v = length energies /\
    forall k i, (k < length energies)%nat -> bracket (em_energies _ m) (nth k energies 0) i ->
      power_law (nth i (em_energies _ m) 0) (nth (S i) (em_energies _ m) 0) (total w m (x i) i) (total w m (x (S i)) (S i))
                (nth k energies 0) (nth k v 0).
Proof.
  intros T H HE HV HT. unfold mapcube_wcs.
  rewrite (via_planes_eq Dir m _ (fun k => total w m (x k) k)).
  2:{ intros k Hk. apply wcs_sum_ok; [exact T|]. intros i j Hi Hj Hw. now apply HV. }
  destruct (resample_ok (em_energies _ m) (map (fun k => total w m (x k) k) (seq 0 (length (em_energies _ m)))) energies H) as (v & E & L & G).
  - now rewrite map_length, seq_length.
  - intros k Hk. rewrite map_length, seq_length in Hk. rewrite MpsfProofs.nth_mapseq by exact Hk. now apply HT.
  - exact HE.
  - exists v. split; [exact E|]. split; [exact L|]. intros k i Hk B. specialize (G k i Hk B).
    pose proof B as (B1 & _). rewrite !MpsfProofs.nth_mapseq in G by lia. exact G.
Qed.

(** The same for a map without energies, whose pixel (i, j) has one value. *)
Theorem C76_spatial_map (w : wcsmap Dir) (m : expmap Dir) (p : list (list R)) energies :
  table (wm_nx _ w) (wm_ny _ w) (wm_solid _ w) -> energy_grid (em_energies _ m) -> positive energies ->
  nth_error (wm_image _ w) 0 = Some p -> table (wm_ny _ w) (wm_nx _ w) p ->
  (forall k, (k < length (em_energies _ m))%nat -> 0 < total w m (fun i j => entry p j i) k) ->
  exists v, spatialmap_wcs Dir w m energies = (v, Ok tt) /\ length v = length energies /\
    forall k i, (k < length energies)%nat -> bracket (em_energies _ m) (nth k energies 0) i ->
      power_law (nth i (em_energies _ m) 0) (nth (S i) (em_energies _ m) 0)
                (total w m (fun i j => entry p j i) i) (total w m (fun i j => entry p j i) (S i)) (nth k energies 0) (nth k v 0).
Proof.
  intros T H HE HI HP HT. unfold spatialmap_wcs.
  rewrite (via_planes_eq Dir m _ (fun k => total w m (fun i j => entry p j i) k)).
  2:{ intros k Hk. apply wcs_sum_ok; [exact T|]. intros i j Hi Hj Hw. unfold vec_get at 1. rewrite HI. cbn [obind].
      destruct HP as (P1 & P2). rewrite (vec_get_ok p j []) by lia. cbn [obind]. rewrite (vec_get_ok _ i 0) by (rewrite P2; lia). reflexivity. }
  destruct (resample_ok (em_energies _ m) (map (fun k => total w m (fun i j => entry p j i) k) (seq 0 (length (em_energies _ m)))) energies H) as (v & E & L & G).
  - now rewrite map_length, seq_length.
  - intros k Hk. rewrite map_length, seq_length in Hk. rewrite MpsfProofs.nth_mapseq by exact Hk. now apply HT.
  - exact HE.
  - exists v. split; [exact E|]. split; [exact L|]. intros k i Hk B. specialize (G k i Hk B).
    pose proof B as (B1 & _). rewrite !MpsfProofs.nth_mapseq in G by lia. exact G.
Qed.

(** A power law takes the given values at its two energies, so the exposures at the planes are the totals. *)
Theorem C76_power_law_ends x1 x2 y1 y2 y : 0 < x1 < x2 -> 0 < y1 -> 0 < y2 ->
  (power_law x1 x2 y1 y2 x1 y -> y = y1) /\ (power_law x1 x2 y1 y2 x2 y -> y = y2).
Proof.
  intros (H1 & H2) Y1 Y2. pose proof (ln_increasing _ _ H1 H2). unfold power_law, log_line. split; intros (Hy & E); apply ln_inv; auto; nra.
Qed.

(** ** The exposure of a source *)

(** Whatever way is chosen: after a call that returns, the source has the energies asked for and one exposure for each. *)
Theorem C76_source (m : expmap Dir) by_map (sp : spatial Dir) s s' energies :
  sp_map _ sp = None \/ (exists w, sp_map _ sp = Some (mapcube_wcs Dir w)) \/ (exists w, sp_map _ sp = Some (spatialmap_wcs Dir w)) \/
    (exists h, sp_map _ sp = Some (healpix_dist Dir h)) ->
  computeExposure Dir skydir m by_map sp s energies = (s', Ok tt) ->
  em_have _ m = true /\ ds_energies s' = energies /\ length (ds_exposure s') = length energies /\ (sp_map _ sp <> None -> ds_loaded s' = false) /\
  (sp_map _ sp = None \/ by_map = false -> integrateSpatialDist Dir skydir m energies (sp_value _ sp) = Ok (ds_exposure s')).
Proof.
  intros HS E. unfold computeExposure in E. destruct (em_have Dir m) eqn:EH; [|discriminate]. split; [reflexivity|].
  assert (LI : forall v, integrateSpatialDist Dir skydir m energies (sp_value _ sp) = Ok v -> length v = length energies).
  { unfold integrateSpatialDist. intros v.
    match goal with |- mfold ?f _ _ = _ -> _ => assert (K : forall es acc v, mfold f es acc = Ok v -> length v = (length acc + length es)%nat) end.
    { induction es as [|e es IH]; intros acc v0; cbn [mfold]; [intros [= <-]; simpl; lia|].
      destruct (upper_plane _ _); cbn [obind]; [|discriminate..]. destruct (mfold _ _ _); cbn [obind]; [|discriminate..].
      intros E0. rewrite (IH _ _ E0), app_length. simpl. lia. }
    intros E0. now rewrite (K _ _ _ E0). }
  destruct by_map.
  - destruct (sp_map Dir sp) as [integ|] eqn:EM.
    + destruct (integ m energies) as [x o] eqn:EI. destruct o as [[]| |]; [|discriminate..]. injection E as <-. cbn.
      split; [reflexivity|]. split; [|split; [reflexivity|intros [K|K]; discriminate]].
      destruct HS as [K|[(w & K)|[(w & K)|(h & K)]]]; try discriminate; injection K as ->; eapply via_planes_length; exact EI.
    + destruct (integrateSpatialDist _ _ _ _ _) as [v| |] eqn:EI; [|discriminate..]. injection E as <-. cbn.
      split; [reflexivity|]. split; [now apply LI|]. split; [congruence|]. auto.
  - destruct (integrateSpatialDist _ _ _ _ _) as [v| |] eqn:EI; [|discriminate..]. injection E as <-. cbn.
    split; [reflexivity|]. split; [now apply LI|]. split; [|auto]. destruct (sp_map Dir sp); [reflexivity|congruence].
Qed.

(** Without an exposure map the call throws, and the exposures stay as they were. *)
Theorem C76_no_map (m : expmap Dir) by_map (sp : spatial Dir) s energies : em_have _ m = false ->
  snd (computeExposure Dir skydir m by_map sp s energies) = Throw /\ ds_exposure (fst (computeExposure Dir skydir m by_map sp s energies)) = ds_exposure s.
Proof. intros H. unfold computeExposure. rewrite H. split; reflexivity. Qed.

(** ** Reading exposure maps *)

Theorem C76_read (f : expfile Dir) : (length (ef_energies _ f) * length (ef_solid _ f) <= length (ef_image _ f))%nat ->
  exists m, readExposureFile Dir f = Ok m /\ em_have _ m = true /\ em_ra _ m = ef_ra _ f /\ em_dec _ m = ef_dec _ f /\
    em_solid _ m = ef_solid _ f /\ em_energies _ m = ef_energies _ f /\ em_at _ m = ef_at _ f /\ em_within _ m = ef_within _ f /\
    table (length (ef_energies _ f)) (length (ef_solid _ f)) (em_planes _ m) /\
    forall k p, (k < length (ef_energies _ f))%nat -> (p < length (ef_solid _ f))%nat ->
      entry (em_planes _ m) k p = nth (k * length (ef_solid _ f) + p) (ef_image _ f) 0.
Proof.
  intros H. unfold readExposureFile. rewrite read_energies. cbn [obind]. rewrite read_planes_loop by exact H. cbn [obind snd].
  eexists. split; [reflexivity|]. cbn. do 7 (split; [reflexivity|]). split.
  - split; [now rewrite map_length, seq_length|]. intros i Hi. rewrite MpsfProofs.nth_mapseq by exact Hi. now rewrite map_length, seq_length.
  - intros k p Hk Hp. unfold entry. rewrite MpsfProofs.nth_mapseq by exact Hk. now rewrite MpsfProofs.nth_mapseq.
Qed.

(** An image that is too short for the energies makes the reader throw. *)
Theorem C76_short_image (f : expfile Dir) : (length (ef_image _ f) < length (ef_energies _ f) * length (ef_solid _ f))%nat ->
  readExposureFile Dir f = Throw.
Proof.
  intros H. unfold readExposureFile. rewrite read_energies. cbn [obind].
  set (np := length (ef_solid Dir f)) in *. set (ne := length (ef_energies Dir f)) in *.
  assert (Hnp : (0 < np)%nat) by nia. set (q := (length (ef_image Dir f) / np)%nat).
  pose proof (Nat.div_mod (length (ef_image Dir f)) np ltac:(lia)) as DM. pose proof (Nat.mod_upper_bound (length (ef_image Dir f)) np ltac:(lia)) as MB. fold q in DM.
  assert (Hq : (q < ne)%nat) by nia.
  replace ne with (q + (1 + (ne - q - 1)))%nat by lia. rewrite seq_app, mfold_app.
  rewrite read_planes_loop by nia. cbn [obind seq plus mfold fst snd]. rewrite (read_row_short (ef_image Dir f) (q * np) np) by nia. reflexivity.
Qed.

(** ** Computing exposure maps *)

Section C.
Variable pix : R -> R -> R -> R -> R -> R -> Dir.
Variable expo : Dir -> list R -> list R.
Variable flt : R -> R.

(** Pixel (i, j) belongs to the part of the map that is asked for. *)
Definition wanted (sub : bool) (a b c d : Z) (i j : nat) : Prop :=
  sub = true -> (a <= Z.of_nat i < b)%Z /\ (c <= Z.of_nat j < d)%Z.

(** The map that computeMap writes: its energies run from emin to emax in equal logarithmic steps; the plane of energy
    k holds, at pixel (i, j), the exposure at that energy of the direction of pixel (i+1, j+1) of the projection, or
    zero outside the part that was asked for; the pixels of a row are 2r/(nlon-1) apart. *)
Theorem C76_computed emin emax r nlon nlat ne sub a b c d :
  0 < emin < emax -> (2 <= nlon)%nat -> (2 <= nlat)%nat -> (2 <= ne)%nat -> (forall dr es, length (expo dr es) = length es) ->
  exists mf dx dy, computeMap Dir pix expo flt emin emax r nlon nlat ne sub a b c d = Ok mf /\
    mf_naxes mf = (nlon, nlat, ne) /\ length (mf_image mf) = (ne * (nlat * nlon))%nat /\
    length (mf_energies mf) = ne /\ energy_grid (mf_energies mf) /\ nth 0 (mf_energies mf) 0 = emin /\ nth (ne - 1) (mf_energies mf) 0 = emax /\
    (forall k, (S (S k) < ne)%nat -> nth (S k) (mf_energies mf) 0 / nth k (mf_energies mf) 0 = nth (S (S k)) (mf_energies mf) 0 / nth (S k) (mf_energies mf) 0) /\
    dx * (INR nlon - 1) = 2 * r /\ dy * (INR nlat - 1) = 2 * r /\
    forall i j k, (i < nlon)%nat -> (j < nlat)%nat -> (k < ne)%nat ->
      (wanted sub a b c d i j -> nth (k * (nlat * nlon) + (j * nlon + i)) (mf_image mf) 0 =
          flt (nth k (expo (pix (fst (mf_crpix mf)) (snd (mf_crpix mf)) dx dy (INR i + 1) (INR j + 1)) (mf_energies mf)) 0)) /\
      (~ wanted sub a b c d i j -> nth (k * (nlat * nlon) + (j * nlon + i)) (mf_image mf) 0 = 0).
Proof.
  intros (He1 & He2) Hlon Hlat Hne HX.
  assert (Q : forall n, (2 <= n)%nat -> 0 < INR n - 1). { intros n Hn. pose proof (le_INR 2 n Hn) as K. change (INR 2) with 2 in K. lra. }
  pose proof (Q nlon Hlon) as Q1. pose proof (Q nlat Hlat) as Q2. pose proof (Q ne Hne) as Q3.
  destruct (computeMap_ok Dir pix expo flt emin emax r nlon nlat ne sub a b c d He1 ltac:(lra) Hlon Hlat Hne HX) as (im & E & L & G).
  eexists _, (2 * r / (INR nlon - 1)), (2 * r / (INR nlat - 1)). split; [exact E|]. cbn [mf_naxes mf_crpix mf_image mf_energies fst snd].
  set (step := ln (emax / emin) / (INR ne - 1)) in *.
  assert (S0 : 0 < step).
  { apply Rdiv_lt_0_compat; [|exact Q3]. rewrite <- ln_1. apply ln_increasing; [lra|]. apply (Rmult_lt_reg_r emin); [lra|]. unfold Rdiv. rewrite Rmult_assoc, Rinv_l; lra. }
  assert (N : forall k, (k < ne)%nat -> nth k (map (fun k => emin * exp (step * INR k)) (seq 0 ne)) 0 = emin * exp (step * INR k)) by (intros; now rewrite MpsfProofs.nth_mapseq).
  split; [reflexivity|]. split; [rewrite L; lia|]. split; [now rewrite map_length, seq_length|]. split; [|split; [|split; [|split; [|split; [|split]]]]].
  - split; [rewrite map_length, seq_length; exact Hne|]. split.
    + rewrite N by lia. apply Rmult_lt_0_compat; [lra|apply exp_pos].
    + intros i Hi. rewrite map_length, seq_length in Hi. rewrite !N by lia. apply Rmult_lt_compat_l; [lra|]. apply exp_increasing. rewrite S_INR. nra.
  - rewrite N by lia. cbn [INR]. rewrite Rmult_0_r, exp_0. ring.
  - rewrite N by lia. rewrite minus_INR by lia. change (INR 1) with 1. unfold step. replace (ln (emax / emin) / (INR ne - 1) * (INR ne - 1)) with (ln (emax / emin)) by (field; lra).
    rewrite exp_ln by (apply Rdiv_lt_0_compat; lra). field. lra.
  - intros k Hk. rewrite !N by lia. rewrite !S_INR.
    replace (step * (INR k + 1 + 1)) with (step * INR k + step + step) by ring. replace (step * (INR k + 1)) with (step * INR k + step) by ring.
    rewrite !exp_plus. pose proof (exp_pos (step * INR k)). pose proof (exp_pos step). field. repeat split; lra.
  - field. lra.
  - field. lra.
  - intros i j k Hi Hj Hk. replace (k * (nlat * nlon) + (j * nlon + i))%nat with ((k * nlat + j) * nlon + i)%nat by lia.
    destruct (G i j k Hi Hj Hk) as (G1 & G2). rewrite !plus_INR in G1. split; [exact G1|exact G2].
Qed.

(** Two parts of a map that meet at column x add up to the whole map. *)
Theorem C76_parts emin emax r nlon nlat ne x : 0 < emin < emax -> (2 <= nlon)%nat -> (2 <= nlat)%nat -> (2 <= ne)%nat ->
  (forall dr es, length (expo dr es) = length es) ->
  exists whole left right, computeMap Dir pix expo flt emin emax r nlon nlat ne false 0 0 0 0 = Ok whole /\
    computeMap Dir pix expo flt emin emax r nlon nlat ne true 0 x 0 (Z.of_nat nlat) = Ok left /\
    computeMap Dir pix expo flt emin emax r nlon nlat ne true x (Z.of_nat nlon) 0 (Z.of_nat nlat) = Ok right /\
    forall p, (p < ne * (nlat * nlon))%nat -> nth p (mf_image whole) 0 = nth p (mf_image left) 0 + nth p (mf_image right) 0.
Proof.
  intros He H1 H2 H3 HX.
  destruct (computeMap_ok Dir pix expo flt emin emax r nlon nlat ne false 0 0 0 0 ltac:(lra) ltac:(lra) H1 H2 H3 HX) as (im & E & L & G).
  destruct (computeMap_ok Dir pix expo flt emin emax r nlon nlat ne true 0 x 0 (Z.of_nat nlat) ltac:(lra) ltac:(lra) H1 H2 H3 HX) as (im1 & E1 & L1 & G1).
  destruct (computeMap_ok Dir pix expo flt emin emax r nlon nlat ne true x (Z.of_nat nlon) 0 (Z.of_nat nlat) ltac:(lra) ltac:(lra) H1 H2 H3 HX) as (im2 & E2 & L2 & G2).
  do 3 eexists. split; [exact E|]. split; [exact E1|]. split; [exact E2|]. intros p Hp. cbn [mf_image].
  assert (P : exists i j k, (i < nlon)%nat /\ (j < nlat)%nat /\ (k < ne)%nat /\ p = ((k * nlat + j) * nlon + i)%nat).
  { exists (p mod nlon)%nat, (p / nlon mod nlat)%nat, (p / nlon / nlat)%nat.
    pose proof (Nat.div_mod p nlon ltac:(lia)). pose proof (Nat.mod_upper_bound p nlon ltac:(lia)).
    pose proof (Nat.div_mod (p / nlon) nlat ltac:(lia)). pose proof (Nat.mod_upper_bound (p / nlon) nlat ltac:(lia)).
    set (a := (p / nlon)%nat) in *. set (b := (a / nlat)%nat) in *. set (u := (p mod nlon)%nat) in *. set (v := (a mod nlat)%nat) in *.
    split; [lia|]. split; [lia|]. split; [|nia]. destruct (Nat.lt_ge_cases b ne) as [|Kb]; [assumption|exfalso].
    assert (K1 : (ne * nlat <= a)%nat) by nia. pose proof (Nat.mul_le_mono_r _ _ nlon K1). lia. }
  destruct P as (i & j & k & Hi & Hj & Hk & ->).
  destruct (G i j k Hi Hj Hk) as (Ga & _). destruct (G1 i j k Hi Hj Hk) as (Gb & Gc). destruct (G2 i j k Hi Hj Hk) as (Gd & Ge).
  rewrite Ga by (intros K; discriminate). destruct (Z_lt_ge_dec (Z.of_nat i) x) as [Lx|Lx].
  - rewrite Gb by (intros _; lia). rewrite Ge by (intros K; specialize (K eq_refl); lia). ring.
  - rewrite Gd by (intros _; lia). rewrite Gc by (intros K; specialize (K eq_refl); lia). ring.
Qed.

(** A map that is written and read again has the computed exposures in the planes. *)
Theorem C76_write_read emin emax r nlon nlat ne (f : expfile Dir) mf : 0 < emin < emax -> (2 <= nlon)%nat -> (2 <= nlat)%nat -> (2 <= ne)%nat ->
  (forall dr es, length (expo dr es) = length es) ->
  computeMap Dir pix expo flt emin emax r nlon nlat ne false 0 0 0 0 = Ok mf ->
  ef_energies _ f = mf_energies mf -> ef_image _ f = mf_image mf -> length (ef_solid _ f) = (nlat * nlon)%nat ->
  exists m dx dy, readExposureFile Dir f = Ok m /\ em_have _ m = true /\ em_energies _ m = mf_energies mf /\
    table ne (nlat * nlon) (em_planes _ m) /\
    forall i j k, (i < nlon)%nat -> (j < nlat)%nat -> (k < ne)%nat ->
      entry (em_planes _ m) k (j * nlon + i) =
        flt (nth k (expo (pix (fst (mf_crpix mf)) (snd (mf_crpix mf)) dx dy (INR i + 1) (INR j + 1)) (mf_energies mf)) 0).
Proof.
  intros He H1 H2 H3 HX E Fe Fi Fs.
  destruct (C76_computed emin emax r nlon nlat ne false 0 0 0 0 He H1 H2 H3 HX) as (mf' & dx & dy & E' & _ & L & LE & _ & _ & _ & _ & _ & _ & G).
  rewrite E in E'. injection E' as <-.
  destruct (C76_read f) as (m & ER & R1 & _ & _ & _ & R5 & _ & _ & R8 & R9).
  { rewrite Fe, Fi, Fs, L, LE. lia. }
  exists m, dx, dy. split; [exact ER|]. split; [exact R1|]. split; [now rewrite R5|]. rewrite Fe, LE, Fs in R8. split; [exact R8|].
  intros i j k Hi Hj Hk. rewrite R9 by (rewrite ?Fe, ?LE, ?Fs; nia). rewrite Fs, Fi. apply (G i j k Hi Hj Hk). intros K; discriminate.
Qed.

(** The centre of the region of interest is the middle of the map when the numbers of pixels are even. *)
Theorem C76_centre emin emax r nlon nlat ne sub a b c d mf :
  computeMap Dir pix expo flt emin emax r nlon nlat ne sub a b c d = Ok mf -> Nat.Even nlon -> Nat.Even nlat ->
  fst (mf_crpix mf) = (1 + INR nlon) / 2 /\ snd (mf_crpix mf) = (1 + INR nlat) / 2.
Proof.
  intros E H1 H2. unfold computeMap in E. repeat (match type of E with obind ?o _ = _ => destruct o; cbn [obind] in E; [|discriminate..] end).
  injection E as <-. cbn [mf_crpix fst snd].
  assert (K : forall n, Nat.Even n -> crpix_of n = (1 + INR n) / 2).
  { intros n (x & ->). unfold crpix_of. rewrite (Nat.mul_comm 2 x), Nat.div_mul by lia. rewrite mult_INR. change (INR 2) with 2. field. }
  split; now apply K.
Qed.

(** When a number of pixels is odd, the middle of the map lies half a pixel beside the centre of the region. *)
Theorem C76_odd_refuted emin emax r nlon nlat ne sub a b c d mf :
  computeMap Dir pix expo flt emin emax r nlon nlat ne sub a b c d = Ok mf -> Nat.Odd nlon ->
  fst (mf_crpix mf) = (1 + INR nlon) / 2 - 1 / 2.
Proof.
  intros E H1. unfold computeMap in E. repeat (match type of E with obind ?o _ = _ => destruct o; cbn [obind] in E; [|discriminate..] end).
  injection E as <-. cbn [mf_crpix fst snd]. destruct H1 as (x & ->). unfold crpix_of. replace ((2 * x + 1) / 2)%nat with x.
  - rewrite plus_INR, mult_INR. change (INR 2) with 2. change (INR 1) with 1. field.
  - apply (Nat.div_unique _ 2 x 1); lia.
Qed.

(** A map of one energy, or one pixel wide, cannot be computed: the steps are divisions by zero. *)
Theorem C76_one_refuted emin emax r nlon nlat ne sub a b c d : 0 < emin < emax -> ne = 1%nat \/ ((2 <= ne)%nat /\ nlon = 1%nat) ->
  computeMap Dir pix expo flt emin emax r nlon nlat ne sub a b c d = UB.
Proof.
  intros He H. unfold computeMap. rewrite div_ok by lra. cbn [obind]. rewrite log_ok by (apply Rdiv_lt_0_compat; lra). cbn [obind].
  destruct H as [->|(Hne & ->)].
  - unfold div_ at 1. change (INR 1 - 1) with (1 - 1). destruct (Reqb_spec (1 - 1) 0); [reflexivity|lra].
  - pose proof (le_INR 2 ne Hne) as K. change (INR 2) with 2 in K. rewrite div_ok by lra. cbn [obind].
    destruct (front _) as [e0| |] eqn:EF; cbn [obind]; [|exfalso|reflexivity].
    + unfold div_ at 1. change (INR 1 - 1) with (1 - 1). destruct (Reqb_spec (1 - 1) 0); [reflexivity|lra].
    + unfold front, vec_get in EF. destruct (nth_error _ 0); discriminate.
Qed.
End C.
End D.

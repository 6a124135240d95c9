(** C77/C177: pixels, events and headers of counts maps; HEALPix maps. *)
From Coq Require Import Reals Lra String.
From Verif Require Import Base AccumModel AccumProofs HistModel HistSpec HistProofs DexpSpec CmapModel CmapSpec CmapProofs CmapProofs2.
Open Scope string_scope.
Open Scope list_scope.
Open Scope R_scope.

(** *** Pixels: pixel (i, j) is entry j nx + i; its direction is that of place (i + 1, j + 1), its solid angle that of the
    square around it; a pixel that is not wholly on the sky has no solid angle. *)
Theorem C77_pixels :
  forall Dir (sky : R -> R -> option Dir) origin quad nx ny, (0 < nx)%nat -> (0 < ny)%nat ->
  exists px, getPixels sky origin quad nx ny = Ok px /\ length px = (nx * ny)%nat /\
    forall i j, (i < nx)%nat -> (j < ny)%nat ->
      let x := INR i + 1 in let y := INR j + 1 in let h := 1 / 2 in
      (forall c p q r s, sky x y = Some c -> sky (x - h) (y - h) = Some p -> sky (x - h) (y + h) = Some q ->
         sky (x + h) (y + h) = Some r -> sky (x + h) (y - h) = Some s ->
         nth_error px (j * nx + i) = Some (c, quad p q r s)) /\
      (sky x y = None \/ sky (x - h) (y - h) = None \/ sky (x - h) (y + h) = None \/
       sky (x + h) (y + h) = None \/ sky (x + h) (y - h) = None ->
         nth_error px (j * nx + i) = Some (origin, 0)).
Proof.
  intros Dir sky origin quad nx ny Hx Hy. rewrite (pixels_ok sky origin quad nx ny Hx Hy). eexists. split; [reflexivity|].
  split; [apply (length_rows (fun j i => one_pixel sky origin quad (1 / 2 + INR i) (1 / 2 + INR (S i)) (1 / 2 + INR j) (1 / 2 + INR (S j))))|].
  intros i j Hi Hj. cbv zeta.
  set (v := fun j i => one_pixel sky origin quad (1 / 2 + INR i) (1 / 2 + INR (S i)) (1 / 2 + INR j) (1 / 2 + INR (S j))).
  assert (E : nth_error (concat (map (fun j => map (v j) (seq 0 nx)) (seq 0 ny))) (j * nx + i) = Some (v j i)).
  { rewrite <- (nth_rows v (origin, 0) nx ny i j Hi Hj). apply nth_error_nth'. rewrite (length_rows v). nia. }
  change (concat _) with (concat (map (fun j => map (v j) (seq 0 nx)) (seq 0 ny))). rewrite E. clear E.
  unfold v, one_pixel, computeSolidAngle. rewrite !S_INR.
  replace ((1 / 2 + INR i + (1 / 2 + (INR i + 1))) / 2) with (INR i + 1) by field.
  replace ((1 / 2 + INR j + (1 / 2 + (INR j + 1))) / 2) with (INR j + 1) by field.
  replace (1 / 2 + INR i) with (INR i + 1 - 1 / 2) by field. replace (1 / 2 + INR j) with (INR j + 1 - 1 / 2) by field.
  replace (1 / 2 + (INR i + 1)) with (INR i + 1 + 1 / 2) by field. replace (1 / 2 + (INR j + 1)) with (INR j + 1 + 1 / 2) by field.
  split.
  - intros c p q r s -> -> -> -> ->. reflexivity.
  - intros H.
    destruct (sky (INR i + 1) (INR j + 1)); [|reflexivity].
    destruct (sky (INR i + 1 - 1 / 2) (INR j + 1 - 1 / 2)); [|reflexivity].
    destruct (sky (INR i + 1 - 1 / 2) (INR j + 1 + 1 / 2)); [|reflexivity].
    destruct (sky (INR i + 1 + 1 / 2) (INR j + 1 + 1 / 2)); [|reflexivity].
    destruct (sky (INR i + 1 + 1 / 2) (INR j + 1 - 1 / 2)); [|reflexivity].
    destruct H as [H|[H|[H|[H|H]]]]; discriminate.
Qed.
Print Assumptions C77_pixels.
Example C77_case_pixels : exists px, getPixels (fun x y => Some (x, y)) (0, 0) (fun _ _ _ _ => 5) 3 2 = Ok px /\ length px = 6%nat.
Proof.
  destruct (C77_pixels (R * R) (fun x y => Some (x, y)) (0, 0) (fun _ _ _ _ => 5) 3 2) as (px & E & L & _); try lia. eauto.
Qed.

(** A pixel whose centre is on the sky but one corner is not is placed at the origin of the coordinates. *)
Theorem C77_edge_pixel_refuted :
  let sky x y := if Rlt_dec x (6 / 5) then Some (x, y) else None in
  sky 1 1 = Some (1, 1) /\
  exists px, getPixels sky (0, 0) (fun _ _ _ _ => 1) 1 1 = Ok px /\ nth_error px 0 = Some ((0, 0), 0).
Proof.
  cbv zeta. split; [destruct (Rlt_dec 1 (6 / 5)); [reflexivity|lra]|].
  destruct (C77_pixels (R * R) (fun x y => if Rlt_dec x (6 / 5) then Some (x, y) else None) (0, 0) (fun _ _ _ _ => 1) 1 1)
    as (px & E & _ & H); try lia.
  exists px. split; [exact E|]. destruct (H 0%nat 0%nat ltac:(lia) ltac:(lia)) as (_ & H2). apply H2. cbn [INR].
  right; right; right; left. destruct (Rlt_dec (0 + 1 + 1 / 2) (6 / 5)); [lra|reflexivity].
Qed.
Print Assumptions C77_edge_pixel_refuted.

(** The border: every corner of a pixel that lies on the edge of the map, and nothing else; an error if one is not on the sky. *)
Theorem C77_border :
  forall Dir (sky : R -> R -> option Dir) nx ny, (0 < nx)%nat -> (0 < ny)%nat ->
  ((forall p, border nx ny p -> sky (fst p) (snd p) <> None) ->
   exists ds, getBoundaryPixelDirs sky nx ny = Ok ds /\ length ds = (2 * (nx + 1) + 2 * (ny + 1))%nat /\
     forall d, In d ds <-> exists p, border nx ny p /\ sky (fst p) (snd p) = Some d) /\
  (forall p, border nx ny p -> sky (fst p) (snd p) = None -> getBoundaryPixelDirs sky nx ny = Throw).
Proof.
  intros Dir sky nx ny Hx Hy. rewrite (boundary_eq sky nx ny Hx Hy). split.
  - intros H. destruct (push_dirs_ok sky (border_list nx ny) []) as (r & E & L & Hr).
    { intros p Hp. apply H. now apply border_list_spec. }
    exists r. split; [exact E|]. split.
    + rewrite L. unfold border_list. rewrite !app_length, !map_length, !seq_length. lia.
    + intros d. rewrite Hr. split; intros (p & Hp & Ep); exists p; (split; [now apply border_list_spec|exact Ep]).
  - intros p Hp E. eapply push_dirs_throw; [|exact E]. now apply border_list_spec.
Qed.
Print Assumptions C77_border.
Example C77_case_border : border 2 3 (2 + 1 / 2, 1 + 1 / 2).
Proof. exists 2%nat, 1%nat. cbn. repeat split; auto; lia. Qed.

(** *** Events: each adds one to the cell it falls in. *)
Theorem C77_events :
  forall project nx ny es h evs, energy_grid es ->
  hist_new 0 [linear_axis nx; linear_axis ny; ordered_axis es] = Ok h ->
  exists h', binInput project h evs = Ok h' /\
    forall i j k, (i < nx)%nat -> (j < ny)%nat -> (k < length es - 1)%nat ->
      nth (cell_index nx ny i j k) (h_data h') 0 =
      INR (length (filter (fun e => let p := project (e_ra e) (e_dec e) in
             in_pixel (fst p) i && in_pixel (snd p) j && in_bin es (e_energy e) k) evs)).
Proof.
  intros project nx ny es h evs Hes Hn. destruct (new_wf 0 _ h Hn) as (Hw & Hb & Hd).
  destruct (events_ok project nx ny es h evs Hes Hw Hb) as (h' & E & _ & _ & Hv).
  exists h'. split; [exact E|]. intros i j k Hi Hj Hk. rewrite Hv by auto. rewrite Hd.
  set (p := prod _). assert (Z : forall c, nth c (repeat 0 p) 0 = 0) by (intros c; apply nth_repeat).
  rewrite Z, Rplus_0_l. reflexivity.
Qed.
Print Assumptions C77_events.

(** Files of events may be binned one after the other. *)
Theorem C77_events_split :
  forall project nx ny es h evs evs', energy_grid es ->
  hist_new 0 [linear_axis nx; linear_axis ny; ordered_axis es] = Ok h ->
  obind (binInput project h evs) (fun h' => binInput project h' evs') = binInput project h (evs ++ evs').
Proof. intros. unfold binInput. now rewrite mfold_app. Qed.
Print Assumptions C77_events_split.
Example C77_case_events : in_pixel 2 1 = true /\ in_pixel (5 / 2) 1 = false /\ in_pixel (5 / 2) 2 = true /\ in_bin [1; 4; 16] 4 1 = true /\ in_bin [1; 4; 16] 4 0 = false.
Proof.
  unfold in_pixel, in_bin, between. cbn [INR nth].
  repeat split; repeat (destruct (Rle_dec _ _); [|try lra; try reflexivity]); repeat (destruct (Rlt_dec _ _); try lra; try reflexivity).
Qed.

(** An event is within the bounds exactly when it is in a cell that is at least [b] cells away from the ends of every axis,
    the energy axis included. *)
Theorem C77_within :
  forall project nx ny es h ra dec e b, energy_grid es -> (0 <= b)%Z ->
  hist_new 0 [linear_axis nx; linear_axis ny; ordered_axis es] = Ok h ->
  exists r, withinBounds project h ra dec e b = Ok r /\
    (r = true <-> exists i j k, (b <= Z.of_nat i < Z.of_nat nx - b)%Z /\ (b <= Z.of_nat j < Z.of_nat ny - b)%Z /\
       (b <= Z.of_nat k < Z.of_nat (length es - 1) - b)%Z /\
       in_pixel (fst (project ra dec)) i = true /\ in_pixel (snd (project ra dec)) j = true /\ in_bin es e k = true).
Proof.
  intros project nx ny es h ra dec e b Hes Hb Hn. destruct (new_wf 0 _ h Hn) as (Hw & Hbs & _).
  set (x := fst (project ra dec)). set (y := snd (project ra dec)).
  unfold withinBounds, binIndexD. unfold ndims. rewrite Hbs. cbn [length Nat.eqb negb]. fold x y.
  pose proof (collect_spec b [linear_axis nx; linear_axis ny; ordered_axis es] Hb [x; y; e] eq_refl) as C.
  assert (F : forall i j k, (i < nx)%nat -> (j < ny)%nat -> (k < length es - 1)%nat ->
     falls_inb [linear_axis nx; linear_axis ny; ordered_axis es] [x; y; e] [i; j; k] = in_pixel x i && in_pixel y j && in_bin es e k).
  { intros. now apply falls_cell. }
  destruct (collect b _ _) as [zs|].
  - destruct C as (iv & -> & Hf & Hr).
    inversion Hr as [|? i ? iv1 Hi Hr1]; subst. inversion Hr1 as [|? j ? iv2 Hj Hr2]; subst. inversion Hr2 as [|? k ? iv3 Hk Hr3]; subst. inversion Hr3; subst.
    cbn [nbins linear_axis ordered_axis] in *.
    rewrite (binIndexL_flat h [i; j; k] Hw) by (rewrite Hbs; reflexivity). cbn [obind].
    eexists. split; [reflexivity|]. replace (0 <=? Z.of_nat _)%Z with true by (symmetry; apply Z.leb_le; lia).
    split; [intros _|reflexivity]. exists i, j, k. rewrite F in Hf by lia.
    apply andb_prop in Hf as (Hf & H3). apply andb_prop in Hf as (H1 & H2). auto 10.
  - eexists. split; [reflexivity|]. cbn. split; [discriminate|].
    intros (i & j & k & Hi & Hj & Hk & H1 & H2 & H3). exfalso. apply (C [i; j; k]).
    + rewrite F by lia. now rewrite H1, H2, H3.
    + repeat constructor; cbn [nbins linear_axis ordered_axis]; lia.
Qed.
Print Assumptions C77_within.

(** *** The header of a map *)
Theorem C77_keywords :
  forall g h n0 n1 n2 dims, word (g_proj g) -> g_proj g <> "" ->
  (g_lb g = false -> word n0 /\ n0 <> "" /\ n0 <> "GLON") ->
  exists h', setKeywords g [n0; n1; n2] h = Ok h' /\
    readKeywords [fst (fst dims); snd (fst dims); snd dims] h' =
    Ok (mk_geom dims (g_crpix g) (g_crval g) (g_cdelt g) (g_rot g) (g_lb g) (g_proj g)).
Proof.
  intros [nax [[p1 p2] p3] [[v1 v2] v3] [[d1 d2] d3] rot lb proj] h n0 n1 n2 [[m1 m2] m3] Hw Hne Hn. cbn [g_proj g_lb fst snd] in *.
  unfold setKeywords. cbn [g_crpix g_crval g_cdelt g_rot g_lb g_proj].
  destruct lb; cbn [vec_get nth_error obind].
  - eexists. split; [reflexivity|]. unfold readKeywords, get_num, get_str.
    repeat (rewrite get_set_eq || rewrite get_set_neq by reflexivity); cbn [obind].
    change ("GLON-" ++ proj)%string with ("GLON" ++ "-" ++ proj)%string.
    rewrite (tokens_two "GLON" "-" proj); [| |discriminate|exact Hw|exact Hne|now left].
    + reflexivity.
    + cbn. repeat split; discriminate.
  - destruct (Hn eq_refl) as (H1 & H2 & H3).
    eexists. split; [reflexivity|]. unfold readKeywords, get_num, get_str.
    repeat (rewrite get_set_eq || rewrite get_set_neq by reflexivity); cbn [obind].
    rewrite (tokens_two n0 "---" proj); auto. cbn [last].
    destruct (String.eqb_spec n0 "GLON"); [contradiction|]. reflexivity.
Qed.
Print Assumptions C77_keywords.
Example C77_case_keywords : word "STG" /\ word "RA" /\ stringTokenize "RA---STG" = ["RA"; "STG"] /\ stringTokenize "GLON-CAR" = ["GLON"; "CAR"].
Proof. repeat split; discriminate. Qed.

(** A map that is not three-dimensional is refused. *)
Theorem C77_not_3d : forall dims h, length dims <> 3%nat -> readKeywords dims h = Throw.
Proof. intros [|a [|b [|c [|d dims]]]] h H; try reflexivity. cbn in H. lia. Qed.
Print Assumptions C77_not_3d.

(** A new map is centred on its reference direction, which makes it "conform" if its pixels are square; the reported
    pixel size is the smaller one. *)
Theorem C77_centred :
  forall nx ny ne ra dec xs ys emin emax rot lb proj g,
  init_geom nx ny ne ra dec xs ys emin emax rot lb proj = Ok g ->
  (checkMapConforms g = true <-> Rabs xs = Rabs ys) /\ pixelSize g = Rmin (Rabs xs) (Rabs ys) /\
  g_crpix g = ((INR nx + 1) / 2, (INR ny + 1) / 2, 1) /\ g_crval g = (ra, dec, emin) /\
  fst (g_cdelt g) = (- xs, ys) /\ g_rot g = rot /\ g_lb g = lb /\ g_proj g = proj.
Proof.
  intros nx ny ne ra dec xs ys emin emax rot lb proj g H. unfold init_geom in H. destruct (ne =? 1)%nat; [discriminate|].
  injection H as <-. unfold checkMapConforms, pixelSize. cbn [g_naxes g_crpix g_crval g_cdelt g_rot g_lb g_proj fst].
  replace (2 * ((INR nx + 1) / 2)) with (INR nx + 1) by field. replace (2 * ((INR ny + 1) / 2)) with (INR ny + 1) by field.
  rewrite !Z.eqb_refl. cbn [andb]. rewrite Rabs_Ropp.
  split; [|split; [|auto 10]].
  - destruct (Reqb_spec (Rabs xs) (Rabs ys)); split; congruence.
  - unfold Rmin. destruct (Rleb_spec (Rabs xs) (Rabs ys)); destruct (Rle_dec (Rabs xs) (Rabs ys)); auto; lra.
Qed.
Print Assumptions C77_centred.

(** A map read from a file whose reference pixel is off centre by a fifth of a pixel "conforms". *)
Theorem C77_off_centre_refuted :
  let g := mk_geom (4, 4, 1)%nat (27 / 10, 5 / 2, 1) (0, 0, 1) (-1, 1, 1) 0 false "CAR" in
  checkMapConforms g = true /\ fst (fst (g_crpix g)) <> (INR 4 + 1) / 2.
Proof.
  cbv zeta. split; [|cbn; lra]. unfold checkMapConforms. cbn [g_naxes g_crpix g_cdelt].
  rewrite (to_int_eq (2 * (27 / 10)) 5) by lra. rewrite (to_int_eq (2 * (5 / 2)) 5) by lra.
  rewrite (to_int_eq (INR 4 + 1) 5) by (cbn; lra). cbn [Z.eqb Pos.eqb andb].
  destruct (Reqb_spec (Rabs (-1)) (Rabs 1)) as [|N]; [reflexivity|]. exfalso. apply N. change (-1) with (- (1)). now rewrite Rabs_Ropp.
Qed.
Print Assumptions C77_off_centre_refuted.

(** The step of the energy axis of a map made with n logarithmic bins between emin and emax: the header says one n-1st of the
    range, the bins are one nth; with one bin the step is not a number. *)
Theorem C77_energy_step_refuted :
  (forall nx ny ra dec xs ys emin emax rot lb proj, init_geom nx ny 1 ra dec xs ys emin emax rot lb proj = UB) /\
  exists g, init_geom 1 1 2 0 0 1 1 1 (exp 6) 0 false "CAR" = Ok g /\ snd (g_cdelt g) = 6 /\ 6 <> ln (exp 6 / 1) / 2.
Proof.
  split; [reflexivity|]. eexists. split; [reflexivity|]. cbn [g_cdelt snd].
  replace (exp 6 / 1) with (exp 6) by field. rewrite ln_exp. cbn [INR]. split; [field|lra].
Qed.
Print Assumptions C77_energy_step_refuted.

(** *** Maps of a range of energies *)

(** The sum over a range of energies of a three-dimensional map has two axes left: asking for its third axis, or writing
    its header, is undefined. *)
Theorem C77_range_map_refuted :
  forall bx by_ be d st es first last h' es',
  subrange (mk_hist [bx; by_; be] d st) es 2 first last = Ok (h', es') ->
  imageDimension (h_binners h') 2 = UB /\
  forall g names h, length names = length (h_binners h') -> setKeywords g names h = UB.
Proof.
  intros bx by_ be d st es first last h' es' H. unfold subrange in H.
  destruct (sumRange 0 Rplus _ 2 first last) as [h0| |] eqn:E; cbn [obind] in H; try discriminate.
  assert (Hh : h0 = h').
  { destruct (vec_get es first); cbn [obind] in H; try discriminate. destruct (vec_get es last); cbn [obind] in H; try discriminate.
    congruence. }
  subst h0. clear H. unfold sumRange in E. destruct (_ <=? 2)%nat; [discriminate|]. destruct (last <=? first)%nat; [discriminate|].
  destruct (dimSize _ 2) as [n| |]; cbn [obind] in E; try discriminate. destruct (n <=? first)%nat; [discriminate|]. destruct (n <? last)%nat; [discriminate|].
  cbn [h_binners firstn skipn app] in E. unfold hist_new in E. cbn [obind] in E.
  destruct (vec_get _ 2) as [s| |]; cbn [obind] in E; try discriminate.
  destruct (omap _ _) as [o| |]; cbn [obind] in E; try discriminate. injection E as <-. cbn [h_binners length].
  split; [reflexivity|]. intros g names h Hl. destruct names as [|a [|b [|c names]]]; try discriminate. unfold setKeywords.
  destruct (g_crpix g) as ((? & ?) & ?), (g_crval g) as ((? & ?) & ?), (g_cdelt g) as ((? & ?) & ?). destruct (g_lb g); reflexivity.
Qed.
Print Assumptions C77_range_map_refuted.

(** The range of bins 1 and 2 of a spectrum 1, 10, 100: the energies are those of bins 1 and 2, the sum is that of bins 0 and 1. *)
Theorem C77_range_counts_refuted :
  exists h h', hist_new 0 [linear_axis 1; linear_axis 1; ordered_axis [1; 2; 3; 4]] = Ok h /\
    subrange (mk_hist (h_binners h) [1; 10; 100] (h_strides h)) [1; 2; 3; 4] 2 1 3 = Ok (h', [2; 4]) /\
    nth 0 (h_data h') 0 = 11 /\ 10 + 100 <> 11.
Proof. eexists. eexists. split; [reflexivity|]. split; [reflexivity|]. cbn. split; [ring|lra]. Qed.
Print Assumptions C77_range_counts_refuted.

(** *** HEALPix maps *)

(** Binning events: if the lowest energy is above the number of bins (100 MeV, say) no event is counted, whatever the events. *)
Theorem C77_healpix_events_refuted :
  forall pix_index pb es h evs, energy_grid es -> INR (length es - 1) <= nth 0 es 0 ->
  hist_new 0 [pb; ordered_axis es] = Ok h -> binInput_hpx pix_index h evs = Ok h.
Proof.
  intros pix pb es h evs Hes Hlow Hn. destruct (new_wf 0 _ h Hn) as (_ & Hb & _).
  unfold binInput_hpx. induction evs as [|e evs IH]; [reflexivity|]. cbn [mfold].
  rewrite Hb. cbn [vec_get nth_error obind]. unfold fillBin, binIndexD, ndims. rewrite Hb. cbn [length Nat.eqb negb].
  pose proof (ordered_lt es (e_energy e) Hes) as Ho.
  rewrite (collect_hpx pb es _ _ Hes Hlow (Z.lt_le_incl _ _ Ho) 0%Z ltac:(lia) Ho). cbn [obind Z.leb Z.compare].
  exact IH.
Qed.
Print Assumptions C77_healpix_events_refuted.
Example C77_case_healpix_events : energy_grid [100; 1000; 10000] /\ INR (length [100; 1000; 10000] - 1) <= nth 0 [100; 1000; 10000] 0.
Proof. split; [split; [cbn; lia|]; split; [cbn; lra|]; intros [|[|i]] H; cbn in *; try lia; lra|cbn; lra]. Qed.

(** And no direction and energy is within the bounds. *)
Theorem C77_healpix_within_refuted :
  forall pix_index pb es h ra dec e b, energy_grid es -> INR (length es - 1) <= nth 0 es 0 -> (0 <= b)%Z ->
  hist_new 0 [pb; ordered_axis es] = Ok h -> withinBounds_hpx pix_index h ra dec e b = Ok false.
Proof.
  intros pix pb es h ra dec e b Hes Hlow Hb0 Hn. destruct (new_wf 0 _ h Hn) as (_ & Hb & _).
  unfold withinBounds_hpx. rewrite Hb. cbn [vec_get nth_error obind]. unfold binIndexD, ndims. rewrite Hb. cbn [length Nat.eqb negb].
  pose proof (ordered_lt es e Hes) as Ho.
  rewrite (collect_hpx pb es _ _ Hes Hlow (Z.lt_le_incl _ _ Ho) b Hb0 Ho). reflexivity.
Qed.
Print Assumptions C77_healpix_within_refuted.

(** Pixel numbers: on a map of part of the sky the two translations undo each other, and -1 is a pixel that is not on the map. *)
Theorem C77_pixel_numbers :
  forall m r, hm_radius m = Some r -> NoDup (hm_pixels m) ->
  (180 <= r -> forall z, globalToLocalIndex m z = Ok z /\ localToGlobalIndex m z = Ok z) /\
  (r < 180 ->
     (forall i p, nth_error (hm_pixels m) i = Some p ->
        localToGlobalIndex m (Z.of_nat i) = Ok (Z.of_nat p) /\ globalToLocalIndex m (Z.of_nat p) = Ok (Z.of_nat i)) /\
     (forall z, (z < 0 \/ Z.of_nat (length (hm_pixels m)) <= z)%Z -> localToGlobalIndex m z = Ok (-1)%Z) /\
     (forall z, (forall p, In p (hm_pixels m) -> Z.of_nat p <> z) -> globalToLocalIndex m z = Ok (-1)%Z)).
Proof.
  intros m r Hr Hnd. unfold globalToLocalIndex, localToGlobalIndex, allSky. rewrite Hr. cbn [obind].
  destruct (Rleb_spec 180 r) as [L|L].
  - split; [intros _ z; auto|intros; lra].
  - split; [intros; lra|intros _]. split; [|split].
    + intros i p Hp. assert (Hi : (i < length (hm_pixels m))%nat) by (apply nth_error_Some; congruence).
      replace (Z.of_nat i <? 0)%Z with false by (symmetry; apply Z.ltb_ge; lia).
      replace (Z.of_nat (length (hm_pixels m)) <=? Z.of_nat i)%Z with false by (symmetry; apply Z.leb_gt; lia). cbn [orb].
      rewrite Nat2Z.id. unfold vec_get. rewrite Hp. cbn [obind]. split; [reflexivity|].
      assert (G : forall l j k, nth_error l j = Some p -> NoDup l -> place_of l (Z.of_nat p) k = (k + Z.of_nat j)%Z).
      { induction l as [|q l IH]; intros j k Hj Hl; [destruct j; discriminate|]. cbn [place_of]. inversion Hl; subst.
        destruct j as [|j].
        - cbn in Hj. injection Hj as ->. rewrite Z.eqb_refl. lia.
        - cbn in Hj. destruct (Z.eqb_spec (Z.of_nat q) (Z.of_nat p)) as [E|E].
          + exfalso. apply Nat2Z.inj in E. subst q. apply nth_error_In in Hj. contradiction.
          + rewrite (IH j) by auto. lia. }
      rewrite (G _ i) by auto. reflexivity.
    + intros z [Hz|Hz].
      * apply Z.ltb_lt in Hz. now rewrite Hz.
      * apply Z.leb_le in Hz. rewrite Hz, orb_true_r. reflexivity.
    + intros z Hz. f_equal.
      assert (G : forall l k, (forall p, In p l -> Z.of_nat p <> z) -> place_of l z k = (-1)%Z).
      { induction l as [|q l IH]; intros k Hl; [reflexivity|]. cbn [place_of]. destruct (Z.eqb_spec (Z.of_nat q) z) as [E|E].
        - exfalso. apply (Hl q); [now left|exact E].
        - apply IH. intros p Hp. apply Hl. now right. }
      now apply G.
Qed.
Print Assumptions C77_pixel_numbers.
Example C77_case_pixel_numbers : let m := mk_hmap (Some 10) [3; 5]%nat [1; 2] [0; 0] in hm_radius m = Some 10 /\ NoDup (hm_pixels m).
Proof. split; [reflexivity|]. repeat constructor; cbn; intuition lia. Qed.

(** A copy of a HEALPix map (a clone, or the result of the effective background) never had its radius set: using its pixel
    numbers is undefined. *)
Theorem C77_healpix_copy_refuted :
  forall m z, globalToLocalIndex (copy_hpx m) z = UB /\ localToGlobalIndex (copy_hpx m) z = UB /\
    hm_data (copy_hpx m) = hm_data m /\ hm_energies (copy_hpx m) = hm_energies m.
Proof. intros. repeat split; reflexivity. Qed.
Print Assumptions C77_healpix_copy_refuted.

(** Making a HEALPix counts map from a map of intensities never succeeds. *)
Theorem C77_healpix_from_map_refuted :
  forall m, from_proj_hpx m = UB \/ from_proj_hpx m = Throw.
Proof.
  intros m. unfold from_proj_hpx. destruct (Nat.eqb_spec (length (hm_energies m)) 0) as [|Hne]; [now right|]. left.
  destruct (length (hm_energies m)) as [|n] eqn:El; [lia|]. replace (S n - 1)%nat with n by lia.
  rewrite seq_S', mfold_snoc'.
  rewrite (write_loop _ (fun k => nth (S k) (hm_energies m) 0 - nth k (hm_energies m) 0) n).
  - cbn [obind]. unfold vec_get at 1. rewrite (proj2 (nth_error_None (hm_energies m) (S n))) by lia. reflexivity.
  - apply repeat_length.
  - intros ws k Hk _. rewrite !(vec_get_ok (hm_energies m) _ 0) by lia. reflexivity.
Qed.
Print Assumptions C77_healpix_from_map_refuted.

(** Writing a HEALPix map as a weights map deletes the table twice. *)
Theorem C77_healpix_weights_file_refuted :
  forall m, hm_energies m <> [] -> writeAsWeightsMap_hpx m = UB /\ writeOutput_hpx m = Ok (hm_data m).
Proof.
  intros m H. split; [|reflexivity]. unfold writeAsWeightsMap_hpx. cbn [delete_obj obind].
  rewrite (centres_ok [] (hm_energies m) H). reflexivity.
Qed.
Print Assumptions C77_healpix_weights_file_refuted.

(** Maps as the theorems above ask for them exist. *)
Example C77_case_map : energy_grid [100; 1000; 10000] /\
  (exists h, hist_new 0 [linear_axis 3; linear_axis 2; ordered_axis [100; 1000; 10000]] = Ok h /\ length (h_data h) = 12%nat) /\
  exists g, init_geom 3 2 2 10 20 (1 / 2) (1 / 2) 100 10000 0 false "STG" = Ok g.
Proof.
  split; [apply C77_case_healpix_events|]. split; [eexists; split; reflexivity|eexists; reflexivity].
Qed.

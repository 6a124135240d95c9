(** Exposure of diffuse sources in an unbinned analysis.
    src/ExposureMap.cxx, src/MapBase.cxx (interpolatePowerLaw), src/MapCubeFunction2.cxx and src/SpatialMap.cxx
    (integrateSpatialDist), src/DiffuseSource.cxx (computeExposure), src/HealpixProjMap.cxx (evaluation at an energy).
    Real numbers stand for doubles and floats, except that [flt] is the rounding to float of computeMap.  A division
    by zero, or the logarithm of a number that is not positive, is a NaN or an infinity: it is modelled as UB. *)
From Coq Require Import Reals.
From Verif Require Import Base AccumModel EvtModel.
From Verif Require WmapModel.
Local Open Scope R_scope.

(** std::log: NaN or -inf on numbers <= 0. *)
Definition log_ (x : R) : outcome R := if Rltb 0 x then Ok (ln x) else UB.
Definition div_ (x y : R) : outcome R := if Reqb y 0 then UB else Ok (x / y).

Section Dexp.
(** astro::SkyDir, and its constructor from right ascension and declination. *)
Variable Dir : Type.
Variable skydir : R -> R -> Dir.

(** ** Likelihood/ExposureMap.h 140-165: the data members.  em_at and em_within stand for m_projmap, used through
    operator()(dir, k) and withinMapRadius (ExposureMap.cxx 293-306); em_have is m_haveExposureMap. *)
Record expmap := { em_have : bool; em_ra : list R; em_dec : list R; em_solid : list R; em_energies : list R;
                   em_planes : list (list R); em_at : Dir -> nat -> R; em_within : Dir -> bool }.

(** What the FITS file holds: getCelestialArrays, the ENERGIES table, getSolidAngles, getImageData, and the map
    WcsMapLibrary makes of it. *)
Record expfile := { ef_ra : list R; ef_dec : list R; ef_energies : list R; ef_solid : list R; ef_image : list R;
                    ef_at : Dir -> nat -> R; ef_within : Dir -> bool }.

(** ExposureMap.cxx 271-285: readEnergyExtension resizes the vector to the number of rows and fills it row by row. *)
Definition readEnergyExtension (rows : list R) (energies : list R) : outcome (list R) :=
  mfold (fun es r => obind (vec_get rows r) (fun e => vec_set es r e)) (seq 0 (length rows)) (vec_resize energies (length rows) 0).

(** ExposureMap.cxx 44-82: readExposureFile.  exposure.at throws when the image is too short. *)
Definition readExposureFile (f : expfile) : outcome expmap :=
  obind (readEnergyExtension (ef_energies f) []) (fun es =>
  let npixels := length (ef_solid f) in
  obind (mfold (fun (st : nat * list (list R)) (_ : nat) =>
           obind (mfold (fun (s : nat * list R) (sa : nat) =>
                    obind (vec_at (ef_image f) (fst s)) (fun x =>
                    obind (vec_at (snd s) sa) (fun _ => Ok (S (fst s), upd (snd s) sa x))))
                  (seq 0 npixels) (fst st, repeat 0 npixels)) (fun r =>
           Ok (fst r, snd st ++ [snd r])))
         (seq 0 (length es)) (0%nat, [])) (fun st =>
  Ok {| em_have := true; em_ra := ef_ra f; em_dec := ef_dec f; em_solid := ef_solid f; em_energies := es;
        em_planes := snd st; em_at := ef_at f; em_within := ef_within f |})).

(** ExposureMap.cxx 95-105: the position of iterE. *)
Definition upper_plane (es : list R) (e : R) : outcome nat :=
  obind (vec_get es 0) (fun first =>
  if Rltb e first then Ok 1%nat else
  obind (back es) (fun last =>
  if Rleb last e then Ok (length es - 1)%nat else std_upper_bound es e)).

(** ExposureMap.cxx 107-114: one pixel.  A step before begin() is UB. *)
Definition pixel_exposure (m : expmap) (kk j : nat) (e : R) : outcome R :=
  match kk with
  | O => UB
  | S k0 =>
    obind (vec_get (em_energies m) k0) (fun e0 =>
    obind (vec_get (em_energies m) kk) (fun e1 =>
    obind (div_ e e0) (fun q => obind (log_ q) (fun a =>
    obind (div_ e1 e0) (fun q1 => obind (log_ q1) (fun b =>
    obind (div_ a b) (fun expsr =>
    obind (vec_get (em_planes m) kk) (fun hi => obind (vec_get hi j) (fun y1 =>
    obind (vec_get (em_planes m) k0) (fun lo => obind (vec_get lo j) (fun y0 =>
    Ok (expsr * (y1 - y0) + y0))))))))))))
  end.

(** ExposureMap.cxx 84-118: integrateSpatialDist.  [f dir e] is the spatial distribution at SkyDirArg(dir, e). *)
Definition integrateSpatialDist (m : expmap) (energies : list R) (f : Dir -> R -> R) : outcome (list R) :=
  mfold (fun exposure e =>
    obind (upper_plane (em_energies m) e) (fun kk =>
    obind (mfold (fun src j =>
             obind (pixel_exposure m kk j e) (fun expsr =>
             obind (vec_get (em_ra m) j) (fun ra => obind (vec_get (em_dec m) j) (fun dec =>
             obind (vec_get (em_solid m) j) (fun omega =>
             Ok (src + expsr * f (skydir ra dec) e * omega))))))
           (seq 0 (length (em_ra m))) 0) (fun src =>
    Ok (exposure ++ [src]))))
  energies [].

(** ** src/MapBase.cxx 219-240: interpolatePowerLaw.  pow of a base that is not positive is not modelled (UB). *)
Definition interpolatePowerLaw (x x1 x2 y1 y2 : R) : outcome R :=
  if Reqb y1 0 && Reqb y2 0 then Ok 0 else
  if Rleb x1 0 || Rleb x2 0 || Rleb y1 0 || Rleb y2 0 then Throw else
  obind (log_ (y2 / y1)) (fun a => obind (log_ (x2 / x1)) (fun b => obind (div_ a b) (fun gamma =>
  if Rltb 0 (x / x1) then Ok (y1 * Rpower (x / x1) gamma) else UB))).

(** MapCubeFunction2.cxx 114-132, 166-184 and SpatialMap.cxx 113-131, 163-181, the same code four times: the exposure
    at one requested energy.  size() - 2 is a size_t: it wraps for a single energy. *)
Definition at_energy (es ys : list R) (e : R) : outcome R :=
  obind (front es) (fun lo => obind
    (if Rleb e lo then Ok 0%nat else
     obind (back es) (fun hi =>
     if Rleb hi e then (if (length es <? 2)%nat then UB else Ok (length es - 2)%nat) else
     obind (std_upper_bound es e) (fun u => Ok (u - 1)%nat))) (fun i =>
  obind (vec_get es i) (fun x1 => obind (vec_get es (S i)) (fun x2 =>
  obind (vec_get ys i) (fun y1 => obind (vec_get ys (S i)) (fun y2 =>
  interpolatePowerLaw e x1 x2 y1 y2)))))).

(** The loop over the requested energies: the vector filled so far, and how the loop ended. *)
Fixpoint resample (es ys energies exposure : list R) : list R * outcome unit :=
  match energies with
  | [] => (exposure, Ok tt)
  | e :: rest => match at_energy es ys e with
                 | Ok y => resample es ys rest (exposure ++ [y])
                 | Throw => (exposure, Throw)
                 | UB => (exposure, UB)
                 end
  end.

(** A map in a WCS projection (WcsMap2): wm_dir i j is skyDir(i, j), wm_value is operator()(dir, energy). *)
Record wcsmap := { wm_nx : nat; wm_ny : nat; wm_dir : nat -> nat -> Dir; wm_solid : list (list R);
                   wm_image : list (list (list R)); wm_value : Dir -> R -> outcome R }.
(** A HEALPix map: hm_at is operator()(dir, k) on an existing plane. *)
Record hpmap := { hm_n : nat; hm_dir : nat -> Dir; hm_solid : R; hm_energies : list R; hm_nplanes : nat; hm_at : Dir -> nat -> R }.

(** src/HealpixProjMap.cxx 364-381 and src/ProjMap.cxx 174-179: the value on plane k.  The index check accepts
    k = number of energies; m_image[k] is then outside the vector. *)
Definition hp_plane (m : hpmap) (dir : Dir) (k : nat) : outcome R :=
  if (length (hm_energies m) <? k)%nat then Throw else if (k <? hm_nplanes m)%nat then Ok (hm_at m dir k) else UB.

(** src/HealpixProjMap.cxx 384-427: operator()(dir, energy) for a map that does not enforce its energy range; the
    replacement of tiny negative values (420-422) is left out. *)
Definition hp_value (m : hpmap) (dir : Dir) (energy : R) : outcome R :=
  obind (if Rltb energy 0 then front (hm_energies m) else Ok energy) (fun e =>
  obind (if (1 <? length (hm_energies m))%nat
         then obind (std_upper_bound (hm_energies m) e) (fun u => Ok (Nat.min (u - 1) (length (hm_energies m) - 2)))
         else Ok 0%nat) (fun k =>
  obind (hp_plane m dir k) (fun y1 => obind (vec_get (hm_energies m) k) (fun ek =>
  if Reqb e ek then Ok y1 else
  obind (hp_plane m dir (S k)) (fun y2 => obind (vec_get (hm_energies m) (S k)) (fun ek1 =>
  WmapModel.interpolatePowerLaw e ek ek1 y1 y2)))))).

(** The sum over the pixels of a WCS map for plane k of the exposure map; [v i j dir] is the value of the map. *)
Definition wcs_sum (w : wcsmap) (m : expmap) (k : nat) (v : nat -> nat -> Dir -> outcome R) : outcome R :=
  mfold (fun acc i =>
    mfold (fun acc j =>
      if em_within m (wm_dir w (S i) (S j))
      then obind (vec_get (wm_solid w) i) (fun col => obind (vec_get col j) (fun omega =>
           obind (v i j (wm_dir w (S i) (S j))) (fun x =>
           Ok (acc + omega * x * em_at m (wm_dir w (S i) (S j)) k))))
      else Ok acc) (seq 0 (wm_ny w)) acc)
  (seq 0 (wm_nx w)) 0.

(** The exposures at the energies of the exposure map, then the requested ones. *)
Definition via_planes (m : expmap) (plane : nat -> R -> outcome R) (energies : list R) : list R * outcome unit :=
  match mfold (fun ys k => obind (vec_get (em_energies m) k) (fun e => obind (plane k e) (fun y => Ok (ys ++ [y]))))
              (seq 0 (length (em_energies m))) [] with
  | Ok ys => resample (em_energies m) ys energies []
  | Throw => ([], Throw)
  | UB => ([], UB)
  end.

(** MapCubeFunction2.cxx 135-185. *)
Definition mapcube_wcs (w : wcsmap) (m : expmap) (energies : list R) : list R * outcome unit :=
  via_planes m (fun k e => wcs_sum w m k (fun _ _ dir => wm_value w dir e)) energies.
(** SpatialMap.cxx 136-182: image[0][j][i] instead of the value at the energy. *)
Definition spatialmap_wcs (w : wcsmap) (m : expmap) (energies : list R) : list R * outcome unit :=
  via_planes m (fun k _ => wcs_sum w m k (fun i j _ =>
     obind (vec_get (wm_image w) 0) (fun p => obind (vec_get p j) (fun row => vec_get row i)))) energies.
(** MapCubeFunction2.cxx 89-133 and SpatialMap.cxx 88-134. *)
Definition healpix_dist (h : hpmap) (m : expmap) (energies : list R) : list R * outcome unit :=
  via_planes m (fun k e => mfold (fun acc i =>
      if em_within m (hm_dir h i)
      then obind (hp_value h (hm_dir h i) e) (fun x => Ok (acc + hm_solid h * x * em_at m (hm_dir h i) k))
      else Ok acc) (seq 0 (hm_n h)) 0) energies.

(** MapCubeFunction2.cxx 54-59 and SpatialMap.cxx 62-71: the value of the spatial function; prefactor is the
    parameter Normalization or Prefactor. *)
Definition mapcube_value (w : wcsmap) (prefactor : R) (dir : Dir) (e : R) : outcome R :=
  obind (wm_value w dir e) (fun v => Ok (v * prefactor)).

(** ** src/DiffuseSource.cxx 56-90: computeExposure.
    A spatial function has a map (and integrates over it) or not; ds_loaded says that the map is in memory.
    [by_map] is m_mapBasedIntegral or the environment variable MAP_BASED_NPRED. *)
Record dsource := { ds_energies : list R; ds_exposure : list R; ds_loaded : bool }.
Record spatial := { sp_value : Dir -> R -> R; sp_map : option (expmap -> list R -> list R * outcome unit) }.

(** A map cube as spatial function, for a map whose values exist. *)
Definition mapcube_source (w : wcsmap) (prefactor : R) : spatial :=
  {| sp_value := fun d e => match mapcube_value w prefactor d e with Ok v => v | _ => 0 end; sp_map := Some (mapcube_wcs w) |}.

Definition of_outcome (es : list R) (loaded : bool) (o : outcome (list R)) : dsource * outcome unit :=
  match o with
  | Ok x => ({| ds_energies := es; ds_exposure := x; ds_loaded := loaded |}, Ok tt)
  | Throw => ({| ds_energies := es; ds_exposure := []; ds_loaded := loaded |}, Throw)
  | UB => ({| ds_energies := es; ds_exposure := []; ds_loaded := loaded |}, UB)
  end.

Definition computeExposure (m : expmap) (by_map : bool) (sp : spatial) (s : dsource) (energies : list R) : dsource * outcome unit :=
  if em_have m then
    if by_map then
      match sp_map sp with
      | Some integ => match integ m energies with
                      | (x, Ok _) => ({| ds_energies := energies; ds_exposure := x; ds_loaded := false |}, Ok tt)
                      | (x, o) => ({| ds_energies := energies; ds_exposure := x; ds_loaded := true |}, o)
                      end
      | None => of_outcome energies (ds_loaded s) (integrateSpatialDist m energies (sp_value sp))
      end
    else of_outcome energies (match sp_map sp with Some _ => false | None => ds_loaded s end)
                    (integrateSpatialDist m energies (sp_value sp))
  else ({| ds_energies := energies; ds_exposure := ds_exposure s; ds_loaded := ds_loaded s |}, Throw).

(** ** ExposureMap.cxx 120-206: computeMap, and 208-269: writeFitsFile.
    [pix crpix1 crpix2 cdelt1 cdelt2 x y] is SkyDir(proj.pix2sph(x, y)) for the projection with this reference pixel and
    pixel size centred on the region of interest; [expo dir energies] is what PointSource::computeExposure or
    computeExposureWithHyperCube leaves in [exposure]; emin, emax are the energy cuts.  Pixel counts are naturals. *)
Variable pix : R -> R -> R -> R -> R -> R -> Dir.
Variable expo : Dir -> list R -> list R.
Variable flt : R -> R.

Record mapfile := { mf_naxes : nat * nat * nat; mf_crpix : R * R; mf_cdelt : R * R * R; mf_crval3 : R;
                    mf_energies : list R; mf_image : list R }.

(** int/int followed by + 0.5. *)
Definition crpix_of (n : nat) : R := INR (n / 2) + 1 / 2.

Definition computeMap (emin emax sr_radius : R) (nlon nlat nenergies : nat) (compute_submap : bool)
                      (nlongmin nlongmax nlatmin nlatmax : Z) : outcome mapfile :=
  obind (div_ emax emin) (fun q => obind (log_ q) (fun lq =>
  obind (div_ lq (INR nenergies - 1)) (fun estep =>
  let energies := map (fun k => emin * exp (estep * INR k)) (seq 0 nenergies) in
  obind (front energies) (fun e0 =>
  obind (div_ (2 * sr_radius) (INR nlon - 1)) (fun dx =>
  obind (div_ (2 * sr_radius) (INR nlat - 1)) (fun dy =>
  let imin := if compute_submap then Z.to_nat (Z.max 0 nlongmin) else 0%nat in
  let imax := if compute_submap then Z.to_nat (Z.min (Z.of_nat nlon) nlongmax) else nlon in
  let jmin := if compute_submap then Z.to_nat (Z.max 0 nlatmin) else 0%nat in
  let jmax := if compute_submap then Z.to_nat (Z.min (Z.of_nat nlat) nlatmax) else nlat in
  obind (mfold (fun im j =>
           mfold (fun im i =>
             mfold (fun im k =>
               obind (vec_get (expo (pix (crpix_of nlon) (crpix_of nlat) dx dy (INR (i + 1)) (INR (j + 1))) energies) k) (fun x =>
               obind (vec_at im ((k * nlat + j) * nlon + i)%nat) (fun _ =>
               Ok (upd im ((k * nlat + j) * nlon + i)%nat (flt x)))))
             (seq 0 nenergies) im)
           (seq imin (imax - imin)) im)
         (seq jmin (jmax - jmin)) (repeat 0 (nenergies * nlat * nlon)))
  (fun image =>
  Ok {| mf_naxes := (nlon, nlat, nenergies); mf_crpix := (crpix_of nlon, crpix_of nlat); mf_cdelt := (dx, dy, estep);
        mf_crval3 := e0; mf_energies := energies; mf_image := image |}))))))).

End Dexp.

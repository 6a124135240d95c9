(** Maps of point sources: src/PSFUtils.cxx (get_index_and_remainder, bilinear_on_grid, maxPsfRadius,
    createOffsetMap, the PSF estimators, makePointSourceMap_wcs and _healpix),
    Likelihood/Pixel.h (find) and src/ConvolveHealpix.cxx (fillMapWithPSF_refDir).
    Real numbers instead of doubles and floats; a quotient by zero (infinite or not a number) is UB. *)
From Verif Require Import Base AccumModel.
From Coq Require Import Reals List.
Import ListNotations.
Local Open Scope R_scope.

(** PSFUtils.cxx 42-53.  [n] is at least 1 here: bilinear_on_grid has read z[0], and no row of an offset
    map is empty.  For n = 1 the unsigned n-2 wraps and is no limit. *)
Definition get_index_and_remainder (val : R) (n : nat) : nat * R :=
  let trunc := if Rltb val 0 then 0 else if Rltb (INR (n - 1)) val then INR (n - 1) else val in
  let fl := trunc_nat trunc in
  let i := if (n =? 1)%nat then fl else Nat.min fl (n - 2) in
  (i, val - INR i).

(** PSFUtils.cxx 55-83. *)
Definition bilinear_on_grid (x y : R) (z : list (list R)) : outcome R :=
  obind (vec_get z 0) (fun row0 =>
  let nx := length z in
  let ny := length row0 in
  if (ny =? 0)%nat then UB else
  let '(ix, rx) := get_index_and_remainder x nx in
  let '(iy, ry) := get_index_and_remainder y ny in
  let sx := 1 - rx in
  let sy := 1 - ry in
  obind (vec_get z ix) (fun za =>
  obind (vec_get za iy) (fun z1 =>
  obind (vec_get za (iy + 1)) (fun z2 =>
  obind (vec_get z (ix + 1)) (fun zb =>
  obind (vec_get zb iy) (fun z3 =>
  obind (vec_get zb (iy + 1)) (fun z4 =>
  Ok (sx * sy * z1 + sx * ry * z2 + rx * sy * z3 + rx * ry * z4)))))))).

(** BinnedConfig.h 25-31. *)
Inductive integ_type := Adaptive | Annular | Pixel_center.

(** BinnedConfig.h 37-57: the fields of PsfIntegConfig that are used here. *)
Record config := mkConfig {
  c_corrections : bool; c_convolve : bool; c_type : integ_type;
  c_ftol : R; c_peak : R; c_verbose : bool }.

Section Maps.
  (** astro::SkyDir and its difference() in radians (external). *)
  Variable Dir : Type.
  Variable difference : Dir -> Dir -> R.
  (** MeanPsf: operator()(energy, separation), integral(angle, energy), peakValue(energy). *)
  Variable psf : R -> R -> R.
  Variable integral : R -> R -> R.
  Variable peakValue : R -> R.

  (** Pixel.h 28-60, with the pixel coordinates of its centre (Pixel::proj().sph2pix of its direction). *)
  Record pixel := mkPixel { p_dir : Dir; p_omega : R; p_x : R; p_y : R }.

  (** PointSource: getDir(), use_psf(), use_exposure(). *)
  Record source := mkSource { s_dir : Dir; s_use_psf : bool; s_use_exposure : bool }.

  (** CountsMap: pixels(), naxis1(), naxis2(), pixelSize(), getBoundaryPixelDirs(), withinBounds(dir, energy, 4)
      and the pixel coordinates of a direction, projection().sph2pix (external). *)
  Record data_map := mkData {
    d_pixels : list pixel; d_naxis1 : nat; d_naxis2 : nat; d_size : R;
    d_border : list Dir; d_within : Dir -> R -> bool; d_coord : Dir -> R * R }.

  Definition degrees (a b : Dir) : R := difference a b * 180 / PI.

  (** PSFUtils.cxx 115-130. *)
  Definition maxPsfRadius (dir : Dir) (dm : data_map) : outcome R :=
    obind (vec_at (d_border dm) 0) (fun b0 =>
    obind (mfold (fun radius i =>
             obind (vec_at (d_border dm) i) (fun b =>
             let new_rad := difference dir b in
             Ok (if Rltb new_rad radius then new_rad else radius)))
             (seq 1 (length (d_border dm) - 1)) (difference dir b0)) (fun radius =>
    Ok (radius * 180 / PI))).

  (** PSFUtils.cxx 228-267.  j / 0 is UB. *)
  Definition createOffsetMap (dir : Dir) (dm : data_map) : outcome (list (list R)) :=
    let start := repeat (repeat 0 (d_naxis1 dm)) (d_naxis2 dm) in
    let src_coords := d_coord dm dir in
    mfold (fun offsets jp =>
      let j := fst jp in
      if (d_naxis1 dm =? 0)%nat then UB else
      let ix := (j / d_naxis1 dm)%nat in
      let iy := (j mod d_naxis1 dm)%nat in
      let pix_sep := d_size dm * sqrt ((fst src_coords - INR (iy + 1)) ^ 2 + (snd src_coords - INR (ix + 1)) ^ 2) in
      let ang_sep := degrees dir (p_dir (snd jp)) in
      let v := if Rltb (1 / 1000000) pix_sep then ang_sep / pix_sep - 1 else 0 in
      obind (vec_get offsets ix) (fun row =>
      obind (vec_set row iy v) (fun row' =>
      vec_set offsets ix row')))
      (combine (seq 0 (length (d_pixels dm))) (d_pixels dm)) start.

  (** PSFUtils.cxx 1178-1185. *)
  Definition psfValue_pixelCenter (energy : R) (srcDir : Dir) (p : pixel) : R :=
    psf energy (degrees srcDir (p_dir p)).

  (** PSFUtils.cxx 1187-1219. *)
  Definition psfValue_annular (energy : R) (srcDir : Dir) (p : pixel) : outcome R :=
    let offset := degrees srcDir (p_dir p) in
    let omega := p_omega p in
    let pixel_size := sqrt omega * 180 / PI in
    if Rleb offset (pixel_size / 2) then
      let c := 1 - omega / 2 / PI in
      if Rltb c (-1) || Rltb 1 c || Reqb omega 0 then UB else
      let radius := acos c * 180 / PI in
      Ok (integral radius energy / omega)
    else
      let theta1 := offset - pixel_size / 2 in
      let theta2 := offset + pixel_size / 2 in
      let area := 2 * PI * (cos (theta1 * PI / 180) - cos (theta2 * PI / 180)) in
      if Reqb area 0 then UB else
      Ok ((integral theta2 energy - integral theta1 energy) / area).

  (** PSFUtils.cxx 1266-1291. *)
  Definition integrate_psf_fast (energy : R) (srcCoord pixCoord : R * R)
      (offsets : list (list R)) (ref_pixel_size : R) (npts : nat) : outcome R :=
    if (npts =? 0)%nat then UB else
    let dstep := 1 / INR npts in
    obind (mfold (fun acc i =>
      let x := fst pixCoord + INR i * dstep - 1 / 2 + 1 / 2 * dstep in
      mfold (fun acc j =>
        let y := snd pixCoord + INR j * dstep - 1 / 2 + 1 / 2 * dstep in
        let pix_offset := ref_pixel_size * sqrt ((fst srcCoord - x) ^ 2 + (snd srcCoord - y) ^ 2) in
        obind (bilinear_on_grid (y - 1) (x - 1) offsets) (fun scale =>
        Ok (acc + psf energy (pix_offset * (1 + scale))))) (seq 0 npts) acc)
      (seq 0 npts) 0) (fun total =>
    Ok (total / INR (npts * npts))).

  (** PSFUtils.cxx 1247-1261: the while loop; [fast npts] is integrate_psf_fast. Six rounds reach 64. *)
  Fixpoint adaptive_loop (fast : nat -> outcome R) (ftol : R) (rounds npts : nat) (v0 : R) : outcome R :=
    match rounds with
    | O => UB
    | S r =>
      let npts := (npts * 2)%nat in
      obind (fast npts) (fun v1 =>
      if Reqb (v1 - v0) 0 || Reqb v1 0 then Ok v1 else
      let ferr := Rabs ((v1 - v0) / v1) in
      if Rltb ferr ftol || (64 <=? npts)%nat then Ok v1 else
      adaptive_loop fast ftol r npts v1)
    end.

  (** PSFUtils.cxx 1221-1264. *)
  Definition integrate_psf_adaptive (cfg : config) (energy : R) (srcDir : Dir) (p : pixel)
      (srcCoord : R * R) (offsets : list (list R)) (ref_pixel_size : R) : outcome R :=
    let offset := degrees srcDir (p_dir p) in
    let peak_val := peakValue energy in
    let v0 := psf energy offset in
    let peak_ratio := if Reqb peak_val 0 then 0 else v0 / peak_val in
    if Rltb peak_ratio (c_peak cfg) then Ok v0 else
    adaptive_loop (integrate_psf_fast energy srcCoord (p_x p, p_y p) offsets ref_pixel_size)
      (c_ftol cfg) 6 1 v0.

  (** PSFUtils.cxx 1155-1176. *)
  Definition psfValueEstimate (cfg : config) (energy : R) (srcDir : Dir) (p : pixel)
      (srcCoord : R * R) (offsets : list (list R)) (ref_pixel_size : R) : outcome R :=
    match c_type cfg with
    | Adaptive => integrate_psf_adaptive cfg energy srcDir p srcCoord offsets ref_pixel_size
    | Pixel_center => Ok (psfValue_pixelCenter energy srcDir p)
    | Annular => psfValue_annular energy srcDir p
    end.

  (** Pixel.h 70-89, with fudgeFactor 2 and the direction of the source; None is [last].  The first pixel
      is read even if there is none. *)
  Definition find_pixel (ps : list pixel) (dir : Dir) : outcome (option nat) :=
    obind (vec_get ps 0) (fun p0 =>
    let '(dist, closest) :=
      fold_left (fun st jp =>
        let newdist := difference (p_dir (snd jp)) dir in
        if Rltb newdist (fst st) then (newdist, fst jp) else st)
        (combine (seq 0 (length ps)) ps) (difference (p_dir p0) dir, 0%nat) in
    obind (vec_get ps closest) (fun c =>
    Ok (if Rltb (1 - p_omega c / 2 / PI) (cos (dist / 2)) then Some closest else None))).

  (** PSFUtils.cxx 903-904: a negative kmax means all energies.  kmax < kmin makes a vector of about 2^64
      entries, which throws. *)
  Definition last_layer (kmax : Z) (energies : list R) : nat :=
    if (kmax <? 0)%Z then length energies else Z.to_nat kmax.

  (** PSFUtils.cxx 920-926, 1073-1078: [bexp] is the exposure map at the position of the source
      (get_exposures_for_dir), [psf_exposure] is meanpsf.exposure(). *)
  Definition exposures (bexp : option (R -> R)) (psf_exposure energies : list R) : list R :=
    match bexp with Some f => map f energies | None => psf_exposure end.

  (** PSFUtils.cxx 1004-1026: corrections, over all energies. *)
  Definition apply_corrections (energies : list R) (psfRadius : R) (mapIntegrals : list R)
      (npix kmin : nat) (modelmap : list R) : outcome (list R) :=
    mfold (fun mm ke =>
      let kk := fst ke in
      if (kk <? kmin)%nat then UB else
      obind (vec_get mapIntegrals (kk - kmin)) (fun mi =>
      let correction := if Reqb mi 0 then 0 else integral psfRadius (snd ke) / mi in
      mfold (fun mm j =>
        obind (vec_get mm ((kk - kmin) * npix + j)) (fun v =>
        vec_set mm ((kk - kmin) * npix + j) (v * correction))) (seq 0 npix) mm))
      (combine (seq 0 (length energies)) energies) modelmap.

  (** PSFUtils.cxx 887-1047.  The verbose progress output takes a remainder by npts/20. *)
  Definition makePointSourceMap_wcs (cfg : config) (src : source) (dm : data_map) (energies : list R)
      (bexp : option (R -> R)) (psf_exposure : list R) (modelmap : list R) (kmin : nat) (kmaxz : Z)
      : outcome (list R) :=
    let kmax := last_layer kmaxz energies in
    if (kmax <? kmin)%nat then Throw else
    let nbins := (kmax - kmin)%nat in
    let npix := length (d_pixels dm) in
    let npts := (nbins * npix)%nat in
    let modelmap := vec_resize modelmap npts 0 in
    let dir := s_dir src in
    let exposure := exposures bexp psf_exposure energies in
    obind (createOffsetMap dir dm) (fun offsets =>
    let srcCoord := d_coord dm dir in
    if c_convolve cfg && s_use_psf src then
      obind (if c_corrections cfg
             then obind (vec_at energies (length energies / 2)) (fun e => Ok (d_within dm dir e))
             else Ok false) (fun corrections =>
      obind (maxPsfRadius dir dm) (fun psfRadius =>
      obind (mfold (fun st jp =>
        mfold (fun st k =>
          obind (vec_get energies k) (fun energy =>
          if c_verbose cfg && (npts / 20 =? 0)%nat then UB else
          obind (psfValueEstimate cfg energy dir (snd jp) srcCoord offsets (d_size dm)) (fun psf_value =>
          let value := psf_value * p_omega (snd jp) in
          obind (vec_get (snd st) (k - kmin)) (fun mi =>
          obind (if Rleb (degrees dir (p_dir (snd jp))) psfRadius
                 then vec_set (snd st) (k - kmin) (mi + value) else Ok (snd st)) (fun mapIntegrals =>
          obind (if s_use_exposure src
                 then obind (vec_get exposure k) (fun x => Ok (value * x)) else Ok value) (fun value =>
          obind (vec_get (fst st) ((k - kmin) * npix + fst jp)) (fun old =>
          obind (vec_set (fst st) ((k - kmin) * npix + fst jp) (old + value)) (fun mm =>
          Ok (mm, mapIntegrals)))))))))
          (seq kmin nbins) st)
        (combine (seq 0 npix) (d_pixels dm)) (modelmap, repeat 0 nbins)) (fun st =>
      if corrections then apply_corrections energies psfRadius (snd st) npix kmin (fst st) else Ok (fst st))))
    else
      obind (find_pixel (d_pixels dm) dir) (fun target =>
      match target with
      | None => Ok modelmap
      | Some ipix =>
        mfold (fun mm k =>
          obind (if s_use_exposure src then vec_get exposure k else Ok 1) (fun v =>
          vec_set mm ((k - kmin) * npix + ipix) v)) (seq kmin nbins) modelmap
      end)).

  (** ** HEALPix maps *)

  (** CountsMapHealpix: nPixels(), localToGlobalIndex(i) for i below it, globalToLocalIndex, solidAngle(), and the
      pixel that holds a direction (external). *)
  Record hpx_map := mkHpx {
    h_global : list nat; h_local : nat -> option nat; h_omega : R; h_pixel : Dir -> nat }.

  (** ConvolveHealpix.cxx 91-198.  The geometry of the full-sky grid is external: [npix] pixels, the pixel
      [cp] of the centre, the pixels [disc] near the centre ([query_disc_inclusive]) and the [neighbours] of cp;
      [centre_sep p] is the separation of a pixel's centre and [fine d p] lists those of its 4^d sub-pixels
      (never an empty list).  [radius] is containmentRadius(energy, 0.995).  The two sets of pixels are visited
      in increasing order in the code; the order does not matter, each pixel is assigned once.  Maps of order
      above 13 are left out. *)
  Record psf_grid := mkGrid {
    g_npix : nat; g_order : nat; g_centre : nat; g_disc : list nat; g_neighbours : list nat;
    g_sep : nat -> R; g_fine : nat -> nat -> list R }.

  Definition fine_mean (g : psf_grid) (energy : R) (d p : nat) : outcome R :=
    let l := g_fine g d p in
    if (length l =? 0)%nat then UB else
    Ok (fold_left (fun sum s => sum + Rmax (psf energy s) 0) l 0 / INR (length l)).

  Definition fillMapWithPSF_refDir (g : psf_grid) (radius energy : R) : outcome (list R) :=
    let r := Rmin radius 15 in
    let fraction := integral r energy in
    let mem p l := existsb (Nat.eqb p) l in
    let others := filter (fun p => negb (p =? g_centre g)%nat && negb (mem p (g_neighbours g))) (g_disc g) in
    let near := filter (fun p => negb (p =? g_centre g)%nat && mem p (g_neighbours g)) (g_disc g) in
    obind (mfold (fun hp p => vec_set hp p (Rmax (psf energy (g_sep g p)) 0)) others (repeat 0 (g_npix g))) (fun hp =>
    obind (mfold (fun hp p => obind (fine_mean g energy (Nat.min (13 - g_order g) 3) p) (vec_set hp p)) near hp) (fun hp =>
    obind (fine_mean g energy (Nat.min (13 - g_order g) 6) (g_centre g)) (fun c =>
    obind (vec_set hp (g_centre g) c) (fun hp =>
    let average := fold_left Rplus hp 0 / INR (g_npix g) in
    if Reqb (average * INR (g_npix g)) 0 then UB else
    let integral_per_pixel := 1 / (average * INR (g_npix g)) in
    Ok (map (fun v => v * (integral_per_pixel * fraction)) hp))))).

  (** PSFUtils.cxx 1049-1117; the status -1 of a source outside the map is None. *)
  Definition makePointSourceMap_healpix (cfg : config) (src : source) (hm : hpx_map) (g : psf_grid)
      (containmentRadius : R -> R) (energies : list R)
      (bexp : option (R -> R)) (psf_exposure : list R) (modelmap : list R) (kmin : nat) (kmaxz : Z)
      : outcome (option (list R)) :=
    let kmax := last_layer kmaxz energies in
    if (kmax <? kmin)%nat then Throw else
    let nbins := (kmax - kmin)%nat in
    let nPix := length (h_global hm) in
    let modelmap := vec_resize modelmap (nbins * nPix) 0 in
    let exposure := exposures bexp psf_exposure energies in
    if c_convolve cfg && s_use_psf src then
      obind (mfold (fun mm k =>
        obind (vec_get energies k) (fun energy =>
        obind (fillMapWithPSF_refDir g (containmentRadius energy) energy) (fun hpmap =>
        mfold (fun mm i =>
          obind (vec_get (h_global hm) i) (fun glo =>
          obind (vec_get hpmap glo) (fun v =>
          obind (if s_use_exposure src
                 then obind (vec_get exposure k) (fun x => Ok (v * x)) else Ok v) (fun v =>
          vec_set mm ((k - kmin) * nPix + i) v)))) (seq 0 nPix) mm)))
        (seq kmin nbins) modelmap) (fun mm => Ok (Some mm))
    else
      match h_local hm (h_pixel hm (s_dir src)) with
      | None => Ok None
      | Some iglo =>
        obind (mfold (fun mm k =>
          let v := h_omega hm in
          obind (if s_use_exposure src
                 then obind (vec_get exposure k) (fun x => Ok (v * x)) else Ok v) (fun v =>
          vec_set mm ((k - kmin) * nPix + iglo) v)) (seq kmin nbins) modelmap) (fun mm => Ok (Some mm))
      end.
End Maps.
Arguments mkPixel {Dir}. Arguments p_dir {Dir}. Arguments p_omega {Dir}. Arguments p_x {Dir}. Arguments p_y {Dir}.
Arguments mkSource {Dir}. Arguments s_dir {Dir}. Arguments s_use_psf {Dir}. Arguments s_use_exposure {Dir}.
Arguments mkData {Dir}. Arguments d_pixels {Dir}. Arguments d_naxis1 {Dir}. Arguments d_naxis2 {Dir}.
Arguments d_size {Dir}. Arguments d_border {Dir}. Arguments d_within {Dir}. Arguments d_coord {Dir}.
Arguments mkHpx {Dir}. Arguments h_global {Dir}. Arguments h_local {Dir}. Arguments h_omega {Dir}. Arguments h_pixel {Dir}.

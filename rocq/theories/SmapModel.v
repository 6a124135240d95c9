(** Model of the numerical part of the binned source maps: src/FitUtils.cxx:1918-2263 and
    src/SourceMap.cxx:212-342.  Pixels, planes and buffers are lists of reals; float rounding is
    not modelled. *)
From Coq Require Import Reals.
From Verif Require Import Base AccumModel SparseModel.
Local Open Scope outcome_scope.

(** How the map is stored: SourceMap.h m_model (FileUtils::WCS, HPX_AllSky, HPX_Partial) or
    m_sparseModel (HPX_Sparse). *)
Inductive image := Full (m : list R) | SparseI (v : sv R).

(** The members of SourceMap these functions read (SourceMap.h: m_dataCache->num_pixels(),
    num_ebins(), the model, m_edisp_val, m_edisp_bins, m_drm->edisp_bins(), the columns of m_drm,
    m_xi and m_kref of m_drm_cache, m_specVals, m_energies, m_logEnergyRatios and the weights).
    m_edisp_offset is m_edisp_bins - m_drm->edisp_bins() (SourceMap.cxx:97, 645, 840). *)
Record smap := mk_sm {
  sm_np : nat; sm_nb : nat; sm_img : image;
  sm_ev : Z; sm_eb : nat; sm_deb : nat; sm_drm : list (list R); sm_corr : list (R * Z);
  sm_spec : list R; sm_en : list R; sm_ler : list R; sm_w : option (list R) }.
(** SourceMap.h: n_energies(). *)
Definition sm_ne (s : smap) : nat := length (sm_en s).

(** A size_t that is computed from signed quantities; a negative one wraps to a huge index and
    every use of it is out of range. *)
Definition getZ {A} (l : list A) (i : Z) : outcome A := if (i <? 0)%Z then UB else vec_get l (Z.to_nat i).

(** SourceMap.cxx:190-192, SourceMap.h find_value: operator[]. *)
Definition sm_at (s : smap) (i : Z) : outcome R :=
  if (i <? 0)%Z then UB else
  match sm_img s with Full m => vec_get m (Z.to_nat i) | SparseI v => sv_get v (Z.to_nat i) end.

(** FitUtils.cxx:1918-1929. *)
Definition get_spectral_weights (spec en ler : list R) : outcome (list (R * R)) :=
  mfold (fun ws i =>
    s0 <- vec_get spec i ;; e0 <- vec_get en i ;; l <- vec_get ler i ;;
    s1 <- vec_get spec (S i) ;; e1 <- vec_get en (S i) ;;
    Ok (ws ++ [((s0 * e0 * l / 2)%R, (s1 * e1 * l / 2)%R)])) (seq 0 (length ler)) [].

(** FitUtils.cxx:1932-1943. *)
Definition get_edisp_range (s : smap) (k : nat) : Z * Z :=
  let kmin := Z.of_nat k in let kmax := (kmin + 1)%Z in
  if (0 <? sm_ev s)%Z then ((kmin + (Z.of_nat (sm_eb s) - sm_ev s))%Z, (kmax + (Z.of_nat (sm_eb s) + sm_ev s))%Z)
  else (kmin, kmax).

(** std::copy of [l.begin()+a, l.begin()+b). *)
Definition slice {A} (l : list A) (a b : Z) : outcome (list A) :=
  if ((0 <=? a) && (a <=? b) && (b <=? Z.of_nat (length l)))%Z
  then Ok (firstn (Z.to_nat (b - a)) (skipn (Z.to_nat a) l)) else UB.
(** FitUtils.cxx:1946-1980. *)
Definition get_edisp_constants (s : smap) (k : nat) : outcome (Z * Z * list R) :=
  let (kmin, kmax) := get_edisp_range s k in
  let eb := Z.of_nat (sm_eb s) in
  if (sm_ev s =? 0)%Z then Ok ((kmin + eb)%Z, (kmax + eb)%Z, [1%R])
  else if (sm_ev s <? 0)%Z then
    c <- vec_get (sm_corr s) k ;;
    let (xi, kref) := c in
    if (0 <=? kref)%Z then Ok ((kref + eb)%Z, (kref + eb + 1)%Z, [xi])
    else Ok ((kmin + eb)%Z, (kmax + eb)%Z, [xi])
  else
    drm_col <- vec_at (sm_drm s) k ;;
    let off := (eb - Z.of_nat (sm_deb s))%Z in
    col <- slice drm_col (kmin - off) (kmax - off) ;;
    Ok (kmin, kmax, col).

(** FitUtils.cxx:1983-1993. *)
Definition model_counts_contribution (s : smap) (wts : list (R * R)) (xi : R) (npix : nat) (kref : Z) (ipix : nat) : outcome R :=
  let jmin := (kref * Z.of_nat npix + Z.of_nat ipix)%Z in
  let jmax := (jmin + Z.of_nat npix)%Z in
  a <- sm_at s jmin ;; w <- getZ wts kref ;; b <- sm_at s jmax ;;
  Ok (xi * (a * fst w + b * snd w))%R.
(** FitUtils.cxx:1995-2009. *)
Definition npred_contribution (npreds : list R) (wn : R * R) (wts : list (R * R)) (xi : R) (kref : Z) : outcome (R * R) :=
  n0 <- getZ npreds kref ;; w <- getZ wts kref ;; n1 <- getZ npreds (kref + 1) ;;
  Ok ((xi * (n0 * fst w + n1 * snd w))%R, (xi * (fst wn * fst w + snd wn * snd w))%R).

(** The loop [for (k = kmin, idx = 0; k < kmax; k++, idx++)]. *)
Definition krange (kmin kmax : Z) : list (nat * Z) :=
  map (fun i => (i, (kmin + Z.of_nat i)%Z)) (seq 0 (Z.to_nat (kmax - kmin))).
(** FitUtils.cxx:2012-2032. *)
Definition model_counts_edisp (s : smap) (wts : list (R * R)) (col : list R) (ipix npix : nat) (kmin kmax : Z) : outcome R :=
  mfold (fun ret ik =>
    let (idx, k) := (ik : nat * Z) in
    let jmin := (k * Z.of_nat npix + Z.of_nat ipix)%Z in
    a <- sm_at s jmin ;; w <- getZ wts k ;; b <- sm_at s (jmin + Z.of_nat npix) ;; c <- vec_get col idx ;;
    Ok (ret + c * (a * fst w + b * snd w))%R) (krange kmin kmax) 0%R.
(** FitUtils.cxx:2035-2056. *)
Definition npred_edisp (npreds : list R) (wn : list (R * R)) (wts : list (R * R)) (col : list R) (kmin kmax : Z) : outcome (R * R) :=
  mfold (fun ret ik =>
    let (idx, k) := (ik : nat * Z) in
    n0 <- getZ npreds k ;; w <- getZ wts k ;; n1 <- getZ npreds (k + 1) ;; c <- vec_get col idx ;; x <- vec_get wn idx ;;
    Ok ((fst ret + c * (n0 * fst w + n1 * snd w))%R, (snd ret + c * (fst x * fst w + snd x * snd w))%R))
    (krange kmin kmax) (0%R, 0%R).

(** The common expression of FitUtils.cxx:2079-2081, 2198-2200 and 2255-2257; [edisp_col[0]]. *)
Definition counts_in_pixel (s : smap) (wts : list (R * R)) (npix : nat) (ec : Z * Z * list R) (ipix : nat) : outcome R :=
  let '(kmin, kmax, col) := ec in
  if (0 <? sm_ev s)%Z then model_counts_edisp s wts col ipix npix kmin kmax
  else xi <- vec_get col 0 ;; model_counts_contribution s wts xi npix kmin ipix.

(** The filled-pixel list of the data cache (BinnedCountsCache.h: filledPixels(), firstPixels()). *)
Record dcache := mk_dc { dc_filled : list nat; dc_first : list nat }.

(** FitUtils.cxx:2058-2088. *)
Definition addSourceCounts (buf : list R) (s : smap) (dc : dcache) (subtract : bool) : outcome (list R) :=
  let sign := if subtract then (-1)%R else 1%R in
  wts <- get_spectral_weights (sm_spec s) (sm_en s) (sm_ler s) ;;
  mfold (fun buf k =>
    ec <- get_edisp_constants s k ;;
    j_start <- vec_get (dc_first dc) k ;; j_stop <- vec_get (dc_first dc) (S k) ;;
    mfold (fun buf j =>
      ipix <- vec_get (dc_filled dc) j ;;
      counts <- counts_in_pixel s wts (sm_np s) ec ipix ;;
      x <- vec_get buf j ;;
      vec_set buf j (x + sign * counts)%R) (seq j_start (j_stop - j_start)) buf)
    (seq 0 (sm_nb s)) buf.

(** FitUtils.cxx:2230-2263; the mask is the weights map of the source map. *)
Definition updateModelMap (map : list R) (s : smap) (use_mask : bool) : outcome (list R) :=
  wts <- get_spectral_weights (sm_spec s) (sm_en s) (sm_ler s) ;;
  mfold (fun map k =>
    ec <- get_edisp_constants s k ;;
    mfold (fun map ipix =>
      let j := k * sm_np s + ipix in
      masked <- (if use_mask then match sm_w s with None => Ok false | Some w => x <- vec_get w j ;; Ok (Rleb x 0) end else Ok false) ;;
      if masked then Ok map else
      counts <- counts_in_pixel s wts (sm_np s) ec ipix ;;
      x <- vec_get map j ;;
      vec_set map j (x + counts)%R) (seq 0 (sm_np s)) map)
    (seq 0 (sm_nb s)) map.

(** The ranges SourceMap.cxx:241-251 uses for the weighted sums. *)
Definition npred_range (s : smap) (kmeas : nat) : Z * Z :=
  let (a, b) := get_edisp_range s kmeas in
  if (sm_ev s <=? 0)%Z then ((a + Z.of_nat (sm_eb s))%Z, (b + Z.of_nat (sm_eb s))%Z) else (a, b).
(** [m_weights->model()[i]] or 1. *)
Definition weight_at (s : smap) (i : nat) : outcome R :=
  match sm_w s with None => Ok 1%R | Some w => vec_get w i end.
(** SourceMap.cxx:212-280 for a full map that is not empty.  Returns m_npreds and
    m_weighted_npreds. *)
Definition computeNpredArray (s : smap) (m : list R) : outcome (list R * list (list (R * R))) :=
  let ne := sm_ne s in let np := sm_np s in
  mfold (fun (st : list R * list (list (R * R))) k =>
    let (npreds, wn) := st in
    let meas := (sm_eb s <=? k) && (k <? sm_eb s + sm_nb s) in
    let kmeas := k - sm_eb s in
    let (kmin, kmax) := npred_range s kmeas in
    (* 251: resize the row of the measured bin *)
    wn <- (if meas then row <- vec_get wn kmeas ;; vec_set wn kmeas (vec_resize row (Z.to_nat (kmax - kmin)) (0%R, 0%R)) else Ok wn) ;;
    mfold (fun (st : list R * list (list (R * R))) j =>
      let (npreds, wn) := st in
      x <- vec_get m (k * np + j) ;;
      n <- vec_get npreds k ;;
      npreds <- vec_set npreds k (n + x)%R ;;
      if negb meas then Ok (npreds, wn) else
      w <- weight_at s (kmeas * np + j) ;;
      wn <- mfold (fun wn ik =>
              let (i, kk) := (ik : nat * Z) in
              row <- vec_at wn kmeas ;; ab <- vec_at row i ;;
              m0 <- getZ m (kk * Z.of_nat np + Z.of_nat j) ;; m1 <- getZ m (kk * Z.of_nat np + Z.of_nat j + Z.of_nat np) ;;
              row' <- vec_set row i ((fst ab + w * m0)%R, (snd ab + w * m1)%R) ;;
              vec_set wn kmeas row') (krange kmin kmax) wn ;;
      Ok (npreds, wn)) (seq 0 np) (npreds, wn))
    (seq 0 ne) (repeat 0%R ne, repeat [] (sm_nb s)).
(** SourceMap.cxx:282-342: the same for a sparse map. *)
Definition computeNpredArray_sparse (s : smap) (v : sv R) : outcome (list R * list (list (R * R))) :=
  let ne := sm_ne s in let np := sm_np s in
  (* 307-320: only the width of the rows is used *)
  wn <- mfold (fun wn k =>
          if (sm_eb s <=? k) && (k <? sm_eb s + sm_nb s) then
            let (kmin, kmax) := get_edisp_range s (k - sm_eb s) in
            row <- vec_get wn (k - sm_eb s) ;;
            vec_set wn (k - sm_eb s) (vec_resize row (Z.to_nat (kmax - kmin)) (0%R, 0%R))
          else Ok wn) (seq 0 ne) (repeat [] (sm_nb s)) ;;
  mfold (fun (st : list R * list (list (R * R))) (kv : nat * R) =>
    let (npreds, wn) := st in
    let (i0, x) := kv in
    if np =? 0 then UB else
    let k_true := i0 / np in let j := i0 mod np in
    n <- vec_get npreds k_true ;;
    npreds <- vec_set npreds k_true (n + x)%R ;;
    if (k_true <? sm_eb s) || (sm_eb s + sm_nb s <=? k_true) then Ok (npreds, wn) else
    let kmeas := k_true - sm_eb s in
    w <- weight_at s (kmeas * np + j) ;;
    let (kmin, kmax) := get_edisp_range s kmeas in
    wn <- mfold (fun wn ik =>
            let (i, kk) := (ik : nat * Z) in
            row <- vec_at wn kmeas ;; ab <- vec_at row i ;;
            let i0 := (kk * Z.of_nat np + Z.of_nat j)%Z in
            m0 <- (if (i0 <? 0)%Z then UB else sv_get v (Z.to_nat i0)) ;;
            m1 <- (if (i0 + Z.of_nat np <? 0)%Z then UB else sv_get v (Z.to_nat (i0 + Z.of_nat np))) ;;
            row' <- vec_set row i ((fst ab + w * m0)%R, (snd ab + w * m1)%R) ;;
            vec_set wn kmeas row') (krange kmin kmax) wn ;;
    Ok (npreds, wn)) (sv_data v) (repeat 0%R ne, wn).
Definition npred_arrays (s : smap) : outcome (list R * list (list (R * R))) :=
  match sm_img s with Full m => computeNpredArray s m | SparseI v => computeNpredArray_sparse s v end.

(** Four spectra: FitUtils.cxx:2090-2156.  A row of weighted npreds that is missing throws
    (.at). *)
Record fixed_spec := mk_fs { fs_spec : list R; fs_wt : list R; fs_ed : list R; fs_ed_wt : list R }.
Definition add_at (l : list R) (k : nat) (x : R) : outcome (list R) := y <- vec_get l k ;; vec_set l k (y + x)%R.
Definition addFixedNpreds (f : fixed_spec) (s : smap) (subtract : bool) : outcome fixed_spec :=
  nw <- npred_arrays s ;;
  let (npreds, wn) := (nw : list R * list (list (R * R))) in
  wts <- get_spectral_weights (sm_spec s) (sm_en s) (sm_ler s) ;;
  let ones := repeat 1%R (2 * sm_eb s + 1) in
  let sign := if subtract then (-1)%R else 1%R in
  mfold (fun f k =>
    ec <- get_edisp_constants s k ;;
    let '(kmin, kmax, col) := (ec : Z * Z * list R) in
    row <- vec_at wn k ;;
    c <- (if (0 <? sm_ev s)%Z then
            a <- npred_edisp npreds row wts ones kmin kmax ;; b <- npred_edisp npreds row wts col kmin kmax ;; Ok (a, b)
          else
            x <- vec_at row 0 ;; o <- vec_get ones 0 ;;
            a <- npred_contribution npreds x wts o kmin ;;
            xi <- vec_get col 0 ;; b <- npred_contribution npreds x wts xi kmin ;; Ok (a, b)) ;;
    let '((counts, counts_wt), (counts_ed, counts_ed_wt)) := (c : (R * R) * (R * R)) in
    s1 <- add_at (fs_spec f) k (sign * counts)%R ;; s2 <- add_at (fs_wt f) k (sign * counts_wt)%R ;;
    s3 <- add_at (fs_ed f) k (sign * counts_ed)%R ;; s4 <- add_at (fs_ed_wt f) k (sign * counts_ed_wt)%R ;;
    Ok (mk_fs s1 s2 s3 s4)) (seq 0 (sm_nb s)) f.

(** FitUtils.cxx:2158-2227 for one parameter: [dspec] are its cached spectral derivatives, the
    result is the sum of the positive and the negative accumulator, which [getFreeDerivs]
    (BinnedLikelihood.cxx:275-277) adds.  The accumulators add exactly (C04). *)
Definition addFreeDeriv (s : smap) (dspec : list R) (dom : list R) (dc : dcache) (kmin kmax : nat) : outcome (R * R) :=
  nw <- npred_arrays s ;;
  let (npreds, wn) := (nw : list R * list (list (R * R))) in
  wts <- get_spectral_weights dspec (sm_en s) (sm_ler s) ;;
  let acc (pn : R * R) (x : R) := if Rltb 0 x then ((fst pn + x)%R, snd pn) else (fst pn, (snd pn + x)%R) in
  mfold (fun pn k =>
    ec <- get_edisp_constants s k ;;
    j_start <- vec_get (dc_first dc) k ;; j_stop <- vec_get (dc_first dc) (S k) ;;
    pn <- mfold (fun pn j =>
            d <- vec_get dom j ;;
            if Rleb d 0 then Ok pn else
            ipix <- vec_get (dc_filled dc) j ;;
            cd <- counts_in_pixel s wts (sm_np s) ec ipix ;;
            Ok (acc pn (d * cd)%R)) (seq j_start (j_stop - j_start)) pn ;;
    row <- vec_at wn k ;;
    let '(kmin, kmax, col) := (ec : Z * Z * list R) in
    c <- (if (0 <? sm_ev s)%Z then npred_edisp npreds row wts col kmin kmax
          else x <- vec_at row 0 ;; xi <- vec_get col 0 ;; npred_contribution npreds x wts xi kmin) ;;
    Ok (acc pn (- snd c)%R)) (seq kmin (kmax - kmin)) (0%R, 0%R).

(** BinnedLikelihood.cxx:168-185 for given model counts and predicted total: the accumulator
    adds exactly (C04), priors are left out. *)
Definition binned_value (dc : dcache) (data : list R) (np : nat) (model : list R) (npred : R) (kmin kmax : nat) : outcome R :=
  t <- mfold (fun t k =>
    j_start <- vec_get (dc_first dc) k ;; j_stop <- vec_get (dc_first dc) (S k) ;;
    mfold (fun t j =>
      m <- vec_get model j ;;
      if Rleb m 0 then Ok t else
      ipix <- vec_get (dc_filled dc) j ;;
      d <- vec_get data (k * np + ipix) ;;
      Ok (t + d * ln m)%R) (seq j_start (j_stop - j_start)) t) (seq kmin (kmax - kmin)) 0%R ;;
  Ok (t + - npred)%R.
(** BinnedLikelihood.cxx:243-255. *)
Definition data_over_model (dc : dcache) (data : list R) (np : nat) (model : list R) (kmin kmax : nat) : outcome (list R) :=
  mfold (fun dom k =>
    j_start <- vec_get (dc_first dc) k ;; j_stop <- vec_get (dc_first dc) (S k) ;;
    mfold (fun dom j =>
      ipix <- vec_get (dc_filled dc) j ;;
      m <- vec_get model j ;;
      x <- (if Rltb 0 m then d <- vec_get data (k * np + ipix) ;; Ok (d / m)%R else Ok 0%R) ;;
      vec_set dom j x) (seq j_start (j_stop - j_start)) dom)
    (seq kmin (kmax - kmin)) (repeat 0%R (length (dc_filled dc))).

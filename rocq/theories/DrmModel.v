(** Model of src/Drm.cxx (the convolution and the per-source cache), src/SourceMap.cxx:423-429,
    535-550 and src/SourceMapCache.cxx:86-103, 459-465.  Numbers are reals; the computation of the
    matrix elements from the instrument response (Drm.cxx:147-171, 185-262) is left out: the
    matrix is given, as in the constructor at 78-111. *)
From Coq Require Import Reals.
From Verif Require Import Base AccumModel SparseModel SmapModel.
Local Open Scope outcome_scope.

(** Drm.h: m_energies, m_edisp_bins, m_drm. *)
Record drm := mk_drm { dr_en : list R; dr_eb : nat; dr_mat : list (list R) }.
(** Drm.cxx:82-83. *)
Definition dr_nmeas (d : drm) : nat := length (dr_en d) - 1.
Definition dr_ntrue (d : drm) : nat := length (dr_en d) + 2 * dr_eb d - 1.
(** Drm.cxx:97-107 (and 61-71): an energy that is not there would be read out of range; a Drm
    has at least two energies. *)
Definition en (d : drm) (i : nat) : R := nth i (dr_en d) 0%R.
Definition log_ratio_lo (d : drm) : R :=
  if 2 <=? dr_nmeas d then (ln (en d 0 / en d 2) / ln (en d 1 / en d 2))%R else ln (en d 0 / en d 1).
Definition diff_ratio_lo (d : drm) : R :=
  if 2 <=? dr_nmeas d then ((en d 0 - en d 2) / (en d 1 - en d 2))%R else (en d 0 / en d 1)%R.
Definition log_ratio_hi (d : drm) : R :=
  let n := dr_nmeas d in
  if 2 <=? n then (ln (en d n / en d (n - 2)) / ln (en d (n - 1) / en d (n - 2)))%R else ln (en d 1 / en d 0).
Definition diff_ratio_hi (d : drm) : R :=
  let n := dr_nmeas d in
  if 2 <=? n then ((en d n - en d (n - 2)) / (en d (n - 1) - en d (n - 2)))%R else (en d 1 / en d 0)%R.

(** Drm.cxx:271-283: min_counts_value is 1e-4. *)
Definition extrapolate_lo (d : drm) (c0 c1 : R) : R :=
  if Rltb (/ 10000) c0 && Rltb (/ 10000) c1 then (c1 * exp (log_ratio_lo d * ln (c0 / c1)))%R
  else (diff_ratio_lo d * (c0 - c1) + c1)%R.
(** Drm.cxx:293-306: min_counts_value is 1e-10. *)
Definition extrapolate_hi (d : drm) (c0 c1 : R) : R :=
  if Rltb (/ 10000000000) c1 && Rltb (/ 10000000000) c0 then (c0 * exp (log_ratio_hi d * ln (c1 / c0)))%R
  else (diff_ratio_hi d * (c1 - c0) + c0)%R.
(** Drm.cxx:127-133, one turn: the two ends of the deque (265-269, 287-290); fewer than two
    counts are read out of range. *)
Definition extend_once (d : drm) (counts : list R) : outcome (list R) :=
  c0 <- vec_get counts 0 ;; c1 <- vec_get counts 1 ;;
  let counts := extrapolate_lo d c0 c1 :: counts in
  let ncc := length counts - 1 in
  a <- vec_get counts (ncc - 1) ;; b <- vec_get counts ncc ;;
  Ok (counts ++ [extrapolate_hi d a b]).
Definition extend (d : drm) (counts : list R) : outcome (list R) :=
  mfold (fun counts _ => extend_once d counts) (seq 0 (dr_eb d)) counts.
(** Drm.cxx:115-144. *)
Definition convolve (d : drm) (true_counts : list R) : outcome (list R) :=
  if negb (length true_counts =? dr_nmeas d) then Throw else
  counts <- extend d true_counts ;;
  mfold (fun meas kp =>
    x <- mfold (fun acc k => c <- vec_get counts k ;; row <- vec_get (dr_mat d) k ;; r <- vec_get row kp ;; Ok (acc + c * r)%R)
           (seq 0 (dr_ntrue d)) 0%R ;;
    Ok (meas ++ [x])) (seq 0 (dr_nmeas d)) [].
(** Drm.cxx:174-182. *)
Definition compute_transpose (d : drm) : outcome (list (list R)) :=
  mfold (fun t k => mfold (fun t kp =>
      row <- vec_get (dr_mat d) k ;; x <- vec_get row kp ;;
      col <- vec_get t kp ;; col' <- vec_set col k x ;; vec_set t kp col') (seq 0 (dr_nmeas d)) t)
    (seq 0 (dr_ntrue d)) (repeat (repeat 0%R (dr_ntrue d)) (dr_nmeas d)).

(** Drm.h:217-231 (Drm_Cache). *)
Record cache := mk_dcach { ca_true : list R; ca_meas : list R; ca_xi : list R; ca_kref : list Z; ca_true_wt : list R; ca_meas_wt : list R }.

(** Drm.cxx:354-376: true and measured counts of every bin. *)
Definition cache_counts (d : drm) (s : smap) (npreds : list R) (wn : list (list (R * R))) (wts : list (R * R)) : outcome (list (R * R * (R * R))) :=
  mfold (fun l k =>
    row <- vec_at wn k ;; x <- vec_at row 0 ;;
    t <- npred_contribution npreds x wts 1 (Z.of_nat k + Z.of_nat (sm_eb s)) ;;
    m <- (if (0 <? sm_ev s)%Z then
            ec <- get_edisp_constants s k ;;
            let '(kmin, kmax, col) := (ec : Z * Z * list R) in npred_edisp npreds row wts col kmin kmax
          else Ok t) ;;
    Ok (l ++ [(t, m)])) (seq 0 (dr_nmeas d)) [].
(** Drm.cxx:383-397: negative measured counts become zero; the first time this happens in the
    process ([first]) the true counts are printed, reading as many as there are map planes. *)
Definition clamp (s : smap) (first : bool) (nt : nat) (meas : list R) : outcome (list R * bool) :=
  mfold (fun (st : list R * bool) x =>
    let (l, first) := st in
    if Rltb x 0 then (if first && (nt <? sm_ne s - 1) then UB else Ok (l ++ [0%R], false)) else Ok (l ++ [x], first)) meas ([], first).
(** Drm.cxx:399-434. *)
Definition corrections (ev : Z) (tc mc tw : list R) (mw : list R) : outcome (list R * list Z * list R) :=
  r <- mfold (fun (st : Z * (list R * list Z * list R)) k =>
    let '(kref, (xi, kr, mw')) := st in
    t <- vec_get tc k ;; m <- vec_get mc k ;;
    c <- (if Rltb 0 t then Ok (Z.of_nat k, ((m / t)%R, (-1)%Z))
          else if (0 <=? kref)%Z then tr <- getZ tc kref ;; Ok (kref, ((m / tr)%R, kref)) else Ok (kref, (1%R, (-1)%Z))) ;;
    let '(kref, (x, q)) := (c : Z * (R * Z)) in
    w <- (if (ev <? 0)%Z then tr <- getZ tw kref ;; Ok (x * tr)%R else vec_get mw k) ;;
    Ok (kref, (xi ++ [x], kr ++ [q], mw' ++ [w]))) (seq 0 (length tc)) ((-1)%Z, ([], [], [])) ;;
  Ok (snd r).
(** Drm.cxx:332-436.  The vectors have drm.nmeas() elements (312-319).  setSpectralValues (line
    338) has put the current spectrum into the map. *)
Definition drm_update (d : drm) (s : smap) (first : bool) : outcome (cache * bool) :=
  nw <- npred_arrays s ;;
  let (npreds, wn) := (nw : list R * list (list (R * R))) in
  wts <- get_spectral_weights (sm_spec s) (sm_en s) (sm_ler s) ;;
  l <- cache_counts d s npreds wn wts ;;
  let tc := map (fun p => fst (fst p)) l in let tw := map (fun p => snd (fst p)) l in
  let mw := map (fun p => snd (snd p)) l in
  mc <- (if (sm_ev s <? 0)%Z then convolve d tc else Ok (map (fun p => fst (snd p)) l)) ;;
  cl <- clamp s first (length tc) mc ;;
  let (mc, first) := (cl : list R * bool) in
  c <- corrections (sm_ev s) tc mc tw mw ;;
  let '(xi, kr, mw) := (c : list R * list Z * list R) in
  Ok (mk_dcach tc mc xi kr tw mw, first).

(** The map with the corrections of the cache, as get_edisp_constants reads them
    (FitUtils.cxx:1956-1957, Drm.h:194-197). *)
Definition with_cache (s : smap) (c : cache) : smap :=
  mk_sm (sm_np s) (sm_nb s) (sm_img s) (sm_ev s) (sm_eb s) (sm_deb s) (sm_drm s) (combine (ca_xi c) (ca_kref c)) (sm_spec s) (sm_en s) (sm_ler s) (sm_w s).
(** SourceMap.cxx:423-429, 535-550. *)
Definition summed_counts (c : cache) (flag : Z) (weighted : bool) (kmin kmax : nat) : outcome R :=
  let v := if weighted then (if (flag =? 0)%Z then ca_true_wt c else ca_meas_wt c) else (if (flag =? 0)%Z then ca_true c else ca_meas c) in
  mfold (fun t k => x <- vec_get v k ;; Ok (t + x)%R) (seq kmin (kmax - kmin)) 0%R.
(** SourceMap.cxx:92 and SourceMapCache.cxx:459-465: the dispersion setting of the map and the
    flag of NpredValue for a source that does or does not use dispersion. *)
Definition map_ev (use_edisp : bool) (config_ev : Z) : Z := if use_edisp then config_ev else 0%Z.
Definition npred_flag (use_edisp : bool) (config_ev : Z) : Z := if use_edisp then config_ev else (-1)%Z.
(** SourceMapCache.cxx:93-103. *)
Definition NpredValue (d : drm) (s : smap) (first : bool) (flag : Z) (weighted : bool) (kmin kmax : nat) : outcome R :=
  cf <- drm_update d s first ;; summed_counts (fst cf) flag weighted kmin kmax.

(** Model of src/BinnedCountsCache.cxx 21-85 and 105-209: the counts of a binned analysis, the
    optional weights, the index of filled pixels and the counts spectra.

    float and double are R.  Files are not modelled: the weights always come from a ProjMap.
    A ProjMap is named by a number standing for its address, [W n] is the content of the
    WeightMap built from it for this counts map (src/WeightMap.cxx is not modelled).  The
    memory held by the maps is not modelled. *)
From Coq Require Import Reals.
From Verif Require Import Base AccumModel.
Local Open Scope outcome_scope.

(** Shape of the map: [s_hpx] selects computeCountsSpectrum_healpix; for a WCS map the image
    dimensions are nx, ny, ne and for a HEALPix map nx*ny pixels by ne (ny is 1). *)
Record shape := mk_shape { s_hpx : bool; s_nx : nat; s_ny : nat; s_ne : nat }.
(** m_numPixels, which the constructor takes from the map. *)
Definition npix (s : shape) : nat := s_nx s * s_ny s.
Record ccache := mk_cc { cc_data : list R; cc_orig : option nat; cc_wmap : option (list R); cc_wdata : option (list R);
  cc_filled : list nat; cc_first : list nat; cc_spec : list R; cc_spec_wt : list R }.

(** BinnedCountsCache.cxx:112-127: pixel by pixel, energy by energy. *)
Definition fillWeightedCounts (s : shape) (data : list R) (wmap : option (list R)) : outcome (option (list R)) :=
  match wmap with
  | None => Ok None
  | Some w =>
      r <- mfold (fun wts j => mfold (fun wts k =>
             let idx := k * npix s + j in
             wi <- vec_get w idx ;; d <- vec_get data idx ;;
             let is_null := Rleb wi 0 || Rleb d 0 in
             let wi := if is_null then 0%R else wi in
             vec_set wts idx (d * wi)%R) (seq 0 (s_ne s)) wts)
           (seq 0 (npix s)) (repeat 0%R (s_ne s * npix s)) ;;
      Ok (Some r)
  end.
(** BinnedCountsCache.h: data(weighted); dereferencing a null map is undefined. *)
Definition get_data (data : list R) (wdata : option (list R)) (weighted : bool) : outcome (list R) :=
  if weighted then match wdata with Some w => Ok w | None => UB end else Ok data.
Definition has_w (wdata : option (list R)) : bool := match wdata with Some _ => true | None => false end.

(** BinnedCountsCache.cxx:129-146. *)
Definition identifyFilledPixels (s : shape) (the_data : list R) : outcome (list nat * list nat) :=
  r <- mfold (fun (st : list nat * list nat * nat) k =>
         let '(filled, first, i) := st in
         first' <- vec_set first k (length filled) ;;
         fi <- mfold (fun (st : list nat * nat) (_ : nat) =>
                 let (filled, i) := st in
                 d <- vec_get the_data i ;;
                 Ok (if Rltb 0 d then filled ++ [i mod npix s] else filled, S i)) (seq 0 (npix s)) (filled, i) ;;
         Ok (fst fi, first', snd fi)) (seq 0 (s_ne s)) ([], repeat 0 (s_ne s + 1), 0) ;;
  let '(filled, first, _) := r in
  first' <- vec_set first (s_ne s) (length filled) ;;
  Ok (filled, first').

(** BinnedCountsCache.cxx:170-190. *)
Definition spectrum_wcs (s : shape) (data wdata : list R) : outcome (list R * list R) :=
  r <- mfold (fun (st : list R * list R * nat) (_ : nat) =>
         let '(sp, spw, indx) := st in
         t <- mfold (fun (st : R * R * nat) (_ : nat) =>
                mfold (fun (st : R * R * nat) (_ : nat) =>
                  let '(ntot, ntot_wt, indx) := st in
                  d <- vec_get data indx ;; w <- vec_get wdata indx ;;
                  Ok ((ntot + d)%R, (ntot_wt + w)%R, S indx)) (seq 0 (s_nx s)) st) (seq 0 (s_ny s)) (0%R, 0%R, indx) ;;
         let '(ntot, ntot_wt, indx) := t in
         Ok (sp ++ [ntot], spw ++ [ntot_wt], indx)) (seq 0 (s_ne s)) ([], [], 0) ;;
  let '(sp, spw, _) := r in Ok (sp, spw).
(** BinnedCountsCache.cxx:192-209. *)
Definition spectrum_healpix (s : shape) (data wdata : list R) : outcome (list R * list R) :=
  r <- mfold (fun (st : list R * list R * nat) (_ : nat) =>
         let '(sp, spw, indx) := st in
         t <- mfold (fun (st : R * R * nat) (_ : nat) =>
                let '(ntot, ntot_wt, indx) := st in
                d <- vec_get data indx ;; w <- vec_get wdata indx ;;
                Ok ((ntot + d)%R, (ntot_wt + w)%R, S indx)) (seq 0 (s_nx s * s_ny s)) (0%R, 0%R, indx) ;;
         let '(ntot, ntot_wt, indx) := t in
         Ok (sp ++ [ntot], spw ++ [ntot_wt], indx)) (seq 0 (s_ne s)) ([], [], 0) ;;
  let '(sp, spw, _) := r in Ok (sp, spw).
(** BinnedCountsCache.cxx:153-168; a third projection throws and is not modelled. *)
Definition computeCountsSpectrum (s : shape) (data wdata : list R) : outcome (list R * list R) :=
  if s_hpx s then spectrum_healpix s data wdata else spectrum_wcs s data wdata.

(** identifyFilledPixels(); computeCountsSpectrum(); as called in 43-44, 55-56 and 72-73. *)
Definition refresh (s : shape) (data : list R) (orig : option nat) (wmap : option (list R)) : outcome ccache :=
  wdata <- fillWeightedCounts s data wmap ;;
  d <- get_data data wdata (has_w wdata) ;;
  ff <- identifyFilledPixels s d ;;
  sp <- computeCountsSpectrum s data d ;;
  Ok (mk_cc data orig wmap wdata (fst ff) (snd ff) (fst sp) (snd sp)).
(** BinnedCountsCache.cxx:21-44. *)
Definition cc_init (W : nat -> list R) (s : shape) (data : list R) (w : option nat) : outcome ccache :=
  refresh s data w (option_map W w).

Inductive cc_op := CcCounts (counts : list R) | CcWeights (w : option nat) | CcDropOriginal.
Definition opt_eqb (a b : option nat) : bool :=
  match a, b with None, None => true | Some x, Some y => x =? y | _, _ => false end.
(** BinnedCountsCache.cxx:51-57, 59-74, 82-85.  [Throw] leaves the object unchanged. *)
Definition cc_step (W : nat -> list R) (s : shape) (c : ccache) (o : cc_op) : outcome ccache :=
  match o with
  | CcCounts counts =>
      if negb (length counts =? length (cc_data c)) then Throw else refresh s counts (cc_orig c) (cc_wmap c)
  | CcWeights w =>
      if opt_eqb w (cc_orig c) then Ok c else refresh s (cc_data c) w (option_map W w)
  | CcDropOriginal => Ok (mk_cc (cc_data c) None (cc_wmap c) (cc_wdata c) (cc_filled c) (cc_first c) (cc_spec c) (cc_spec_wt c))
  end.
(** A sequence of calls; the program catches the exceptions. *)
Fixpoint cc_run (W : nat -> list R) (s : shape) (c : ccache) (ops : list cc_op) : outcome ccache :=
  match ops with
  | [] => Ok c
  | o :: ops' => match cc_step W s c o with
                 | Ok c' => cc_run W s c' ops'
                 | Throw => cc_run W s c ops'
                 | UB => UB
                 end
  end.

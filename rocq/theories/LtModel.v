(** Model of the good-time bookkeeping: LikeExposure::acceptInterval, overlaps, overlap, the
    constructor's time limits, load and computeCosbins (src/LikeExposure.cxx), the spacecraft data
    (src/ScData.cxx) and the exposure of a point source computed from them
    (src/PointSource.cxx:384-459).  Times, livetimes and angles are real numbers. *)
From Coq Require Import Reals.
From Verif Require Import Base AccumModel EvtModel.
Local Open Scope nat_scope.

Notation interval := (R * R)%type.
(** LikeExposure.cxx:326-337 (overlaps): the second interval is cut down to the intersection, unless
    the two do not overlap. *)
Definition overlaps (cut cand : interval) : option interval :=
  let start := Rmax (fst cut) (fst cand) in
  let stop := Rmin (snd cut) (snd cand) in
  if Rltb start stop then Some (start, stop) else None.
(** LikeExposure.cxx:339-348 (overlap). *)
Definition overlap (a b : interval) : R :=
  let start := Rmax (fst a) (fst b) in
  let stop := Rmin (snd a) (snd b) in
  if Rltb start stop then (stop - start)%R else 0%R.
(** LikeExposure.cxx:290-295: the loop over the time cuts; None is the early return. *)
Fixpoint cut_down (cuts : list interval) (cand : interval) : option interval :=
  match cuts with
  | [] => Some cand
  | c :: cuts' => match overlaps c cand with Some cand' => cut_down cuts' cand' | None => None end
  end.
(** LikeExposure.cxx:300-314: the range of GTIs that is looked at; compareFirst and compareSecond
    look at the ends of the intervals only. *)
Definition gti_window (gtis : list interval) (cand : interval) : outcome (nat * nat) :=
  obind (std_upper_bound (map fst gtis) (fst cand)) (fun u =>
  let first := if u =? 0 then u else u - 1 in
  obind (std_upper_bound (skipn first (map snd gtis)) (snd cand)) (fun w =>
  let last := first + w in
  let last := if last =? length gtis then last else last + 1 in
  Ok (first, last))).
(** LikeExposure.cxx:316-319. *)
Definition gti_total (gtis : list interval) (cand : interval) (first last : nat) : outcome R :=
  mfold (fun total i => obind (vec_get gtis i) (fun g => Ok (total + overlap g cand)%R)) (seq first (last - first)) 0%R.
(** LikeExposure.cxx:268-324 (acceptInterval): the returned flag and the fraction. *)
Definition accept_interval (start stop : R) (cuts gtis : list interval) : outcome (bool * R) :=
  if Rltb stop start then Throw
  else if Reqb start stop then Ok (false, 0%R)
  else match cut_down cuts (start, stop) with
       | None => Ok (false, 0%R)
       | Some cand =>
           let max_total := (snd cand - fst cand)%R in
           obind (gti_window gtis cand) (fun w =>
           obind (gti_total gtis cand (fst w) (snd w)) (fun total =>
           let total := if Rltb max_total total || (length gtis =? 0) then max_total else total in
           Ok (true, (total / (stop - start))%R)))
       end.

(** ** LikeExposure: the limits and load *)
(** LikeExposure.cxx:58-71: earliest start and latest stop of the GTIs; throws without GTIs. *)
Definition gti_limits (gtis : list interval) : outcome (R * R) :=
  match gtis with
  | [] => Throw
  | g :: rest =>
      Ok (fold_left (fun lim g => (if Rltb (fst g) (fst lim) then fst g else fst lim,
                                   if Rltb (snd lim) (snd g) then snd g else snd lim)) rest g)
  end.
(** A row of the spacecraft table; [D] stands for the pointing columns. *)
Record ft2 (D : Type) := mk_ft2 { row_start : R; row_stop : R; row_live : R; row_dir : D }.
Arguments mk_ft2 {D}. Arguments row_start {D}. Arguments row_stop {D}. Arguments row_live {D}. Arguments row_dir {D}.
(** Lines 104-109: the first row that starts after tmin. *)
Fixpoint first_after {D} (tmin : R) (rows : list (ft2 D)) : nat :=
  match rows with
  | [] => 0
  | r :: rows' => if Rltb tmin (row_start r) then 0 else S (first_after tmin rows')
  end.
(** What is filled for an interval: the pointing, the livetime given to fill() of the cube itself and
    to the fill() of the weighted cube. *)
Notation fills D := (list (D * R * R)%type).
(** Lines 125-155: [start] is the value of the variable when the condition of the loop is looked at,
    that is the start of the row before. *)
Fixpoint load_loop {D} (cuts gtis : list interval) (tmax : R) (rows : list (ft2 D)) (start : R) (acc : fills D * nat) : outcome (fills D * nat) :=
  match rows with
  | [] => Ok acc
  | r :: rows' =>
      if Rltb start tmax then
        obind (accept_interval (row_start r) (row_stop r) cuts gtis) (fun af =>
        let '(accepted, fraction) := af in
        let weight := (row_live r / (row_stop r - row_start r))%R in
        load_loop cuts gtis tmax rows' (row_start r)
          (if accepted : bool
           then (fst acc ++ [(row_dir r, (row_live r * fraction)%R, (row_live r * fraction * weight)%R)], S (snd acc))
           else acc))
      else Ok acc
  end.
(** Lines 81-159: on an empty table the iterator is moved before its beginning (line 91) before the
    number of rows is looked at.  The counting of rows (lines 96-101 and [nrows]) only serves the
    progress dots and is left out.  fill and fill_zenith (lines 138-151) differ in what the library
    does with the azimuth and are not told apart. *)
Definition load {D} (cuts gtis : list interval) (tmin tmax : R) (rows : list (ft2 D)) (acc : fills D * nat) : outcome (fills D * nat) :=
  if length rows =? 0 then UB else
  let i := first_after tmin rows in
  let i := if i =? 0 then i else i - 1 in
  obind (vec_get rows i) (fun r => load_loop cuts gtis tmax (skipn i rows) (row_start r) acc).
(** Lines 361-376 (computeCosbins). *)
Definition cos_bins (sqrtbins : bool) (cosmin : R) (nbins : nat) : list R :=
  map (fun i => let factor := (INR i / INR nbins)%R in
                let factor := if sqrtbins then (factor * factor)%R else factor in
                (1 - factor * (1 - cosmin))%R) (seq 0 (nbins + 1)).

(** ** ScData *)
Definition vec3 : Type := (R * R * R)%type.
Definition v_add (a b : vec3) : vec3 := let '(a1, a2, a3) := a in let '(b1, b2, b3) := b in (a1 + b1, a2 + b2, a3 + b3)%R.
Definition v_scale (c : R) (a : vec3) : vec3 := let '(a1, a2, a3) := a in (c * a1, c * a2, c * a3)%R.
Definition v_sub (a b : vec3) : vec3 := v_add a (v_scale (-1) b).
Definition v_mag2 (a : vec3) : R := let '(a1, a2, a3) := a in (a1 * a1 + a2 * a2 + a3 * a3)%R.
(** CLHEP's Hep3Vector::unit: the null vector is left alone. *)
Definition v_unit (a : vec3) : vec3 := if Rltb 0 (v_mag2 a) then v_scale (1 / sqrt (v_mag2 a)) a else a.
(** The columns kept by ScData (Likelihood/ScData.h:82-86). *)
Record scdata := mk_sc { sc_start : list R; sc_stop : list R; sc_live : list R; sc_x : list vec3; sc_z : list vec3 }.
Definition sc_clear : scdata := mk_sc [] [] [] [] [].
Notation sc_row := (ft2 (vec3 * vec3)).
(** ScData.cxx:56-83: one row that passes the filter; its pointing is the x axis and the z axis. *)
Definition sc_push (tstart tstop : R) (sc : scdata) (r : sc_row) : outcome scdata :=
  if Rltb (row_stop r) tstart || Rltb tstop (row_start r) then Ok sc
  else if (1 <? length (sc_start sc)) && Rltb (row_start r) (last (sc_start sc) 0%R) then Throw
  else Ok (mk_sc (sc_start sc ++ [row_start r]) (sc_stop sc ++ [row_stop r]) (sc_live sc ++ [row_live r])
                 (sc_x sc ++ [fst (row_dir r)]) (sc_z sc ++ [snd (row_dir r)])).
(** ScData.cxx:31-85: one file.  [printed] is what the filter expression makes of a time (ten
    significant digits, lines 40-44). *)
Definition sc_read_file (printed : R -> R) (tstart tstop : R) (sc : scdata) (rows : list sc_row) : outcome scdata :=
  let tstart := (tstart - 2 * 30)%R in
  let tstop := (tstop + 2 * 30)%R in
  mfold (sc_push tstart tstop) (filter (fun r => Rleb (printed tstart) (row_start r) && Rleb (row_stop r) (printed tstop)) rows) sc.
(** ScData.cxx:87-100: several files. *)
Definition sc_read (printed : R -> R) (tstart tstop : R) (files : list (list sc_row)) : outcome scdata :=
  obind (mfold (sc_read_file printed tstart tstop) files sc_clear) (fun sc =>
  if length (sc_start sc) =? 0 then Throw else Ok sc).
(** ScData.cxx:102-119 (time_index); None is the wrapped difference 2^64-1. *)
Definition time_index (sc : scdata) (time : R) : outcome (option nat) :=
  obind (front (sc_start sc)) (fun tmin => obind (back (sc_stop sc)) (fun tmax =>
  let tol := (1 / 100000)%R in
  if Rltb time (tmin - tol) || Rltb (tmax + tol) time then Throw
  else obind (std_upper_bound (sc_start sc) time) (fun u => Ok (minus1 u)))).
(** at() with an index that may have wrapped. *)
Definition at_opt {A} (l : list A) (i : option nat) : outcome A := match i with Some i => vec_at l i | None => Throw end.
(** ScData.cxx:121-128 (livetimefrac); a quotient by zero is left as UB (it is not a number or infinite). *)
Definition livetimefrac (sc : scdata) (time : R) : outcome R :=
  obind (time_index sc time) (fun i =>
  obind (at_opt (sc_start sc) i) (fun start =>
  if Rltb time start then Ok 0%R else
  obind (at_opt (sc_stop sc) i) (fun stop =>
  if Rltb stop time then Ok 0%R else
  obind (at_opt (sc_live sc) i) (fun live =>
  if Reqb (stop - start) 0 then UB else Ok (live / (stop - start))%R)))).
(** min(indx, size() - 2) on size_t: with one element the difference wraps and the index stays. *)
Definition index_min (i : option nat) (n : nat) : option nat :=
  match n with
  | 0 | 1 => i
  | S (S m) => match i with Some i => Some (Nat.min i m) | None => Some m end
  end.
(** ScData.cxx:130-137 and 139-146 (xAxis and zAxis at a time), with [axes] the axis in question. *)
Definition axis_at (sc : scdata) (axes : list vec3) (time : R) : outcome vec3 :=
  obind (time_index sc time) (fun i =>
  let i := index_min i (length axes) in
  obind (at_opt (sc_start sc) i) (fun s0 =>
  obind (at_opt (sc_start sc) (option_map S i)) (fun s1 =>
  if Reqb (s1 - s0) 0 then UB else
  let frac := ((time - s0) / (s1 - s0))%R in
  obind (at_opt axes (option_map S i)) (fun a1 =>
  obind (at_opt axes i) (fun a0 =>
  Ok (v_unit (v_add (v_scale frac (v_sub a1 a0)) a0))))))).

(** ** PointSource::computeExposure *)
Section Exposure.
  (** sourceEffArea at an energy and a time, the efficiency factor at an energy and a livetime
      fraction (1 without such a factor), and the inclination of the source in degrees for a z axis. *)
  Variable eff_area : R -> R -> R.
  Variable efficiency : R -> R -> R.
  Variable inclination : vec3 -> R.
  (** PointSource.cxx:413-456: one interval. *)
  Definition exposure_step (sc : scdata) (cuts gtis : list interval) (energies : list R) (exposure : list R) (it : nat) : outcome (list R) :=
    obind (vec_at (sc_start sc) it) (fun start =>
    obind (vec_at (sc_stop sc) it) (fun stop =>
    obind (vec_at (sc_live sc) it) (fun live =>
    let ltfrac := (live / (stop - start))%R in
    obind (accept_interval start stop cuts gtis) (fun af =>
    obind (vec_at (sc_z sc) it) (fun z =>
    let include := if Rltb 90 (inclination z) then false else fst af in
    if include then
      let time := ((start + stop) / 2)%R in
      Ok (map (fun ex => (snd ex + eff_area (fst ex) time * live * snd af * efficiency (fst ex) ltfrac)%R) (combine energies exposure))
    else Ok exposure))))).
  (** PointSource.cxx:406-409; the index of the last interval is at() checked. *)
  Definition exposure_npts (sc : scdata) (max_time : R) : outcome nat :=
    let npts := length (sc_start sc) - 1 in
    obind (vec_at (sc_stop sc) npts) (fun stop =>
    if Rleb max_time stop
    then obind (time_index sc max_time) (fun i => Ok (match i with Some i => i + 1 | None => 0 end))
    else Ok npts).
  (** PointSource.cxx:384-459: [exposure] is the vector passed in. *)
  Definition compute_exposure (sc : scdata) (cuts gtis : list interval) (max_time : R) (energies exposure : list R) : outcome (list R) :=
    if length (sc_start sc) =? 0 then Ok exposure
    else obind (exposure_npts sc max_time) (fun npts =>
         mfold (exposure_step sc cuts gtis energies) (seq 0 (Nat.min npts (length (sc_start sc)))) (repeat 0%R (length energies))).
End Exposure.

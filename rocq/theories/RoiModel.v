(** Model of the region-of-interest cuts (src/RoiCuts.cxx, Likelihood/RoiCuts.h).  Cuts are kept by
    value: the objects they stand for belong to the library dataSubselector.  Writing of keywords is
    left out. *)
From Coq Require Import Reals String.
From Verif Require Import Base AccumModel LtModel.
Local Open Scope nat_scope.

(** What can stand in the data selection keywords of an event file, as far as it is looked at. *)
Inductive dss :=
| EnergyCut (lo hi : R) (closed : bool)
| TimeCut (lo hi : R)
| ConeCut (ra dec radius : R)
| GtiCut (gti : list interval)
| OtherCut.
(** Likelihood/RoiCuts.h:146-169; [None] for m_muZenMax is a value that was never set. *)
Record roi := mk_roi { r_cuts : option (list dss); r_emin : R; r_emax : R; r_energies : list R; r_cone : R * R * R; r_muzen : option R;
                       r_ecut : option (R * R); r_ccut : option (R * R * R); r_tcuts : list interval; r_gtis : list (list interval);
                       r_tmin : R; r_tmax : R }.
(** An event as far as it is looked at: arrival time, energy, cosine of the zenith angle, and the
    separation from a direction in degrees. *)
Record revent := mk_rev { re_time : R; re_energy : R; re_muzen : R; re_sep : R * R -> R }.

Section Roi.
  (** The library: intersection of GTIs, their earliest and latest time, and whether the first energy
      cut is tighter than the second (supercedes). *)
  Variable gti_and : list interval -> list interval -> list interval.
  Variable gti_min gti_max : list interval -> R.
  Variable supercedes : R * R -> R * R -> bool.

  (** RoiCuts.cxx:126-143 (makeEnergyVector) *)
  Definition make_energies (emin emax : R) (nee : nat) : outcome (list R) :=
    if Rleb emin 0 then Throw
    else let estep := (ln (emax / emin) / (INR nee - 1))%R in
         let energies := map (fun i => (emin * exp (estep * INR i))%R) (seq 0 nee) in
         if nee =? 0 then UB else vec_set energies (nee - 1) emax.
  (** RoiCuts.h:50-53, the constructor; the default acceptance cone of the library is [cone]. *)
  Definition roi_new (cone : R * R * R) : outcome roi :=
    obind (make_energies 20 200000 100) (fun es =>
    Ok (mk_roi None 20 200000 es cone None None None [] [] 0 0)).
  (** RoiCuts.cxx:29-47 (addTimeInterval).  The library keeps the intervals of the new object and, if
      there were none, takes the GTI among its cuts. *)
  Definition add_time_interval (tmin tmax : R) (s : roi) : roi :=
    let tcuts := r_tcuts s ++ [(tmin, tmax)] in
    match r_gtis s with
    | g0 :: rest => mk_roi (r_cuts s) (r_emin s) (r_emax s) (r_energies s) (r_cone s) (r_muzen s) (r_ecut s) (r_ccut s)
                      tcuts (gti_and [(tmin, tmax)] g0 :: rest) (r_tmin s) (r_tmax s)
    | [] => let cuts := match r_cuts s with Some c => c | None => [] end in
            mk_roi (Some (cuts ++ [GtiCut [(tmin, tmax)]])) (r_emin s) (r_emax s) (r_energies s) (r_cone s) (r_muzen s) (r_ecut s) (r_ccut s)
                      tcuts [[(tmin, tmax)]] (r_tmin s) (r_tmax s)
    end.
  (** RoiCuts.cxx:49-56 and 58-68 *)
  Definition get_time_cuts (s : roi) : list interval := r_tcuts s.
  Definition get_gtis (s : roi) : list interval := match r_gtis s with [] => [] | g0 :: _ => g0 end.
  (** RoiCuts.cxx:70-91 (setCuts): state left behind and outcome. *)
  Definition set_cuts (ra dec radius emin emax tmin tmax muzen : R) (reset : bool) (s : roi) : roi * outcome unit :=
    let s := if reset
             then add_time_interval tmin tmax (mk_roi (r_cuts s) (r_emin s) (r_emax s) (r_energies s) (r_cone s) (r_muzen s) (r_ecut s) (r_ccut s) [] (r_gtis s) (r_tmin s) (r_tmax s))
             else s in
    let set es cone mu := mk_roi (r_cuts s) emin emax es cone mu (r_ecut s) (r_ccut s) (r_tcuts s) (r_gtis s) tmin tmax in
    match make_energies emin emax 100 with
    | Ok es => (set es (ra, dec, radius) (Some muzen), Ok tt)
    | Throw => (set [] (r_cone s) (r_muzen s), Throw)
    | UB => (s, UB)
    end.
  (** RoiCuts.cxx:183-212, one cut: the numbers of energy, cone and time cuts, and the object. *)
  Definition sort_cut (st : (nat * nat * nat) * roi) (c : dss) : outcome ((nat * nat * nat) * roi) :=
    let '((nenergy, ncone, ntime), s) := st in
    let set ecut ccut tcuts gtis := mk_roi (r_cuts s) (r_emin s) (r_emax s) (r_energies s) (r_cone s) (r_muzen s) ecut ccut tcuts gtis (r_tmin s) (r_tmax s) in
    match c with
    | EnergyCut lo hi closed =>
        let tighter := match r_ecut s with Some old => supercedes (lo, hi) old | None => false end in
        let take := (nenergy =? 0) || tighter in
        (* the cut in force is tested, which is this one or one that passed the test *)
        if take && negb closed then Throw
        else Ok ((if take then S nenergy else nenergy, ncone, ntime),
                 if take then set (Some (lo, hi)) (r_ccut s) (r_tcuts s) (r_gtis s) else s)
    | TimeCut lo hi => Ok ((nenergy, ncone, S ntime), set (r_ecut s) (r_ccut s) (r_tcuts s ++ [(lo, hi)]) (r_gtis s))
    | ConeCut ra dec radius => Ok ((nenergy, S ncone, ntime), set (r_ecut s) (Some (ra, dec, radius)) (r_tcuts s) (r_gtis s))
    | GtiCut g => Ok ((nenergy, ncone, S ntime), set (r_ecut s) (r_ccut s) (r_tcuts s) (r_gtis s ++ [g]))
    | OtherCut => Ok st
    end.
  (** RoiCuts.cxx:177-227 (sortCuts) *)
  Definition sort_cuts (strict : bool) (s : roi) (file : list dss) : outcome roi :=
    obind (mfold sort_cut file ((0, 0, 0), s)) (fun st =>
    let '((nenergy, ncone, ntime), s) := st in
    if strict && (negb (nenergy =? 1) || negb (ncone =? 1) || (ntime =? 0)) then Throw else Ok s).
  (** The GTI cuts of a file (Cuts::getGtiCuts). *)
  Definition gti_cuts (file : list dss) : list (list interval) :=
    concat (map (fun c => match c with GtiCut g => [g] | _ => [] end) file).
  (** RoiCuts.cxx:159-173: the time limits. *)
  Definition time_limits (gtis : list (list interval)) : outcome (R * R) :=
    match gtis with
    | [] => Throw
    | g :: rest => Ok (fold_left (fun lim g => (if Rltb (gti_min g) (fst lim) then gti_min g else fst lim,
                                                if Rltb (gti_max g) (snd lim) then gti_max g else snd lim)) rest (gti_min g, gti_max g))
    end.
  (** RoiCuts.cxx:145-175 (setRoiData): defaults, then setCuts with -1 for the zenith angle. *)
  Definition set_roi_data (file : list dss) (s : roi) : roi * outcome unit :=
    let '(ra, dec, radius) := match r_ccut s with Some c => c | None => (0%R, 0%R, 180%R) end in
    let '(emin, emax) := match r_ecut s with Some e => e | None => (20%R, 200000%R) end in
    match time_limits (gti_cuts file) with
    | Ok (tmin, tmax) => set_cuts ra dec radius emin emax tmin tmax (-1)%R false s
    | Throw => (s, Throw)
    | UB => (s, UB)
    end.
  (** RoiCuts.cxx:93-106 (readCuts) for the selections [file] found in the event files; what was kept from
      before is not cleared.  The state left behind by a throw in sortCuts is not followed. *)
  Definition read_cuts (strict : bool) (file : list dss) (s : roi) : roi * outcome unit :=
    let s1 := mk_roi (Some file) (r_emin s) (r_emax s) (r_energies s) (r_cone s) (r_muzen s) (r_ecut s) (r_ccut s) (r_tcuts s) (r_gtis s) (r_tmin s) (r_tmax s) in
    match sort_cuts strict s1 file with
    | Ok s2 => set_roi_data file s2
    | Throw => (s1, Throw)
    | UB => (s1, UB)
    end.
  (** The library's test of a time against a range (RangeCut::accept, closed) and against GTIs (GtiCut::accept). *)
  Definition range_accept (t : R) (c : interval) : bool := Rleb (fst c) t && Rleb t (snd c).
  Definition gti_accept (t : R) (g : list interval) : bool := existsb (range_accept t) g.
  (** RoiCuts.cxx:229-263 (accept) *)
  Definition accept (s : roi) (e : revent) : outcome bool :=
    let ok := if length (r_gtis s) =? 0 then true else fold_left (fun ok g => ok || gti_accept (re_time e) g) (r_gtis s) false in
    let ok := fold_left (fun _ c => range_accept (re_time e) c) (r_tcuts s) ok in
    let ok := if Rltb (re_energy e) (r_emin s) || Rltb (r_emax s) (re_energy e) then false else ok in
    let '(ra, dec, radius) := r_cone s in
    let ok := if Rltb radius (re_sep e (ra, dec)) then false else ok in
    match r_muzen s with
    | None => UB
    | Some mu => Ok (if Rltb (re_muzen e) mu then false else ok)
    end.
End Roi.

(** Model of the snapshots of a source model (Likelihood/Snapshot.h,
    src/Snapshot.cxx) and of the decision taken from one by the fit scanner
    ([FitScanCache::find_action_needed], src/FitScanner.cxx).

    Simplifications.  Names (of sources, parameters, spectral types) are only
    compared, so they are integers, ordered as the strings are.  Parameter values
    are real numbers.  A spatial model name is the concatenation of the names of
    the spatial functions; here it is the list of those names.  [unsigned] masks
    are binary naturals: bit 29 is the highest ever set.  Parameters are values:
    this describes snapshots that clone them ([owned = true], the only kind the
    fit scanner keeps) and the temporary one inside [compare], which is dropped
    before the source can change. *)
From Verif Require Import Base SMap AccumModel.
From Coq Require Import NArith Reals.

(** optimizers::Parameter: name, [getTrueValue()], [isFree()], [log_prior()] as its
    type and the names and (unscaled) values of its parameters. *)
Record par := { p_name : Z; p_val : R; p_free : bool; p_prior : option (Z * list (Z * R)) }.
(** A source: the spectrum's [genericName()], its [normPar()], all its parameters
    in order, and the map [getSrcFuncs()] with each function's parameters. *)
Record src := { s_kind : Z; s_norm : par; s_pars : list par; s_funcs : list (Z * list par) }.
(** The key "Spectrum" of [getSrcFuncs()]. *)
Definition spec_key : Z := 0%Z.

Local Open Scope N_scope.

(** Snapshot.h:43-105: the bits. *)
Definition Value_Changed := 0x1.
Definition Status_Changed := 0x2.
Definition Prior_Changed := 0x4.
Definition Fixed_Changed := 0x8.
Definition Free_Changed := 0x10.
Definition Par_Changed_Mask := 0x7.
Definition Model_Type_Changed := 0x1.
Definition Free_Model_Type_Changed := 0x2.
Definition Fixed_Model_Type_Changed := 0x4.
Definition Norm_Offset := 0.
Definition Spec_Offset := 5.
Definition Spatial_Offset := 10.
Definition Spec_Model_Offset := 15.
Definition Spatial_Model_Offset := 18.
Definition Ancillary_Offset := 21.
Definition Fixed_Source_Added := N.shiftl Value_Changed 24.
Definition Free_Source_Added := N.shiftl Value_Changed 25.
Definition Fixed_Source_Removed := N.shiftl Value_Changed 26.
Definition Free_Source_Removed := N.shiftl Value_Changed 27.
Definition Source_Freed := N.shiftl Value_Changed 28.
Definition Source_Fixed := N.shiftl Value_Changed 29.

(** Snapshot.h:69-97, 113-136: shifted bits and masks. *)
Definition Norm_Value_Changed := N.shiftl Value_Changed Norm_Offset.
Definition Norm_Status_Changed := N.shiftl Status_Changed Norm_Offset.
Definition Norm_Prior_Changed := N.shiftl Prior_Changed Norm_Offset.
Definition Spec_Fixed_Changed := N.shiftl Fixed_Changed Spec_Offset.
Definition Spec_Free_Changed := N.shiftl Free_Changed Spec_Offset.
Definition Spatial_Fixed_Changed := N.shiftl Fixed_Changed Spatial_Offset.
Definition Spatial_Free_Changed := N.shiftl Free_Changed Spatial_Offset.
Definition Spec_Model_Type_Changed := N.shiftl Model_Type_Changed Spec_Model_Offset.
Definition Free_Spec_Model_Type_Changed := N.shiftl Free_Model_Type_Changed Spec_Model_Offset.
Definition Fixed_Spec_Model_Type_Changed := N.shiftl Fixed_Model_Type_Changed Spec_Model_Offset.
Definition Spatial_Model_Type_Changed := N.shiftl Model_Type_Changed Spatial_Model_Offset.
Definition Free_Spatial_Model_Type_Changed := N.shiftl Free_Model_Type_Changed Spatial_Model_Offset.
Definition Fixed_Spatial_Model_Type_Changed := N.shiftl Fixed_Model_Type_Changed Spatial_Model_Offset.
Definition Ancillary_Changed := N.shiftl Model_Type_Changed Ancillary_Offset.
Definition Norm_Mask := N.shiftl Par_Changed_Mask Norm_Offset.
Definition Spec_Mask := N.shiftl Par_Changed_Mask Spec_Offset.
Definition Spatial_Mask := N.shiftl Par_Changed_Mask Spatial_Offset.
Definition Model_Free_Mask := N.lor Spec_Free_Changed Spatial_Free_Changed.
Definition Model_Fixed_Mask := N.lor Spec_Fixed_Changed Spatial_Fixed_Changed.
Definition Model_Changed_Mask :=
  N.lor (N.lor (N.lor (N.lor Model_Free_Mask Model_Fixed_Mask) Spec_Mask) Spatial_Mask) Ancillary_Changed.

(** [(m_val & mask) != 0]. *)
Definition flag (s mask : N) : bool := negb (N.land s mask =? 0).
(** Snapshot.h:142-179: the accessors. *)
Definition changed (s : N) : bool := negb (s =? 0).
Definition norm_changed s := flag s Norm_Mask.
Definition norm_value_changed s := flag s Norm_Value_Changed.
Definition norm_status_changed s := flag s Norm_Status_Changed.
Definition norm_prior_changed s := flag s Norm_Prior_Changed.
Definition spec_changed s := flag s Spec_Mask.
Definition spec_free_changed s := flag s Spec_Free_Changed.
Definition spec_fixed_changed s := flag s Spec_Fixed_Changed.
Definition spatial_changed s := flag s Spatial_Mask.
Definition spec_model_type_changed s := flag s Spec_Model_Type_Changed.
Definition spatial_model_type_changed s := flag s Spatial_Model_Type_Changed.
Definition model_changed s := flag s Model_Changed_Mask.
(** Snapshot.h:171-175: the names and the bits are exchanged in the code. *)
Definition free_source_added s := flag s Free_Source_Removed.
Definition free_source_removed s := flag s Free_Source_Added.
Definition fixed_source_added s := flag s Fixed_Source_Removed.
Definition fixed_source_removed s := flag s Fixed_Source_Added.
Definition source_freed s := flag s Source_Freed.
Definition source_fixed s := flag s Source_Fixed.

(** The comparison of two values, Snapshot.cxx:56-59, 73-77. *)
Definition moved (v1 v2 : R) : bool :=
  Rltb ((Rabs v1 + Rabs v2) * (1 / 100000))%R (Rabs (v1 - v2))%R.

(** Snapshot.cxx:54-61: the loop over the parameters of two priors. *)
Fixpoint prior_loop (l1 l2 : list (Z * R)) : bool :=
  match l1, l2 with
  | (n1, v1) :: l1', (n2, v2) :: l2' =>
      if negb (n1 =? n2)%Z then true else if moved v1 v2 then true else prior_loop l1' l2'
  | _, _ => false
  end.
(** Snapshot_Source::compare_priors, Snapshot.cxx:39-64 (the type of the prior is
    not looked at). *)
Definition compare_priors (p1 p2 : par) : bool :=
  match p_prior p1, p_prior p2 with
  | None, None => false
  | Some (_, l1), Some (_, l2) =>
      if negb (Nat.eqb (length l1) (length l2)) then true else prior_loop l1 l2
  | _, _ => true
  end.
(** Snapshot_Source::parameter_status, Snapshot.cxx:66-85. *)
Definition parameter_status (p1 p2 : par) : N :=
  let r := 0 in
  let r := if moved (p_val p1) (p_val p2) then N.lor r Value_Changed else r in
  let r := if negb (Bool.eqb (p_free p1) (p_free p2)) then N.lor r Status_Changed else r in
  let r := if compare_priors p1 p2 then N.lor r Prior_Changed else r in
  r.

(** Snapshot_Source::extract_spectral, Snapshot.cxx:95-111: every parameter but the
    normalisation, keyed by name ([getParam(name)] is the parameter of that name:
    names are distinct in a function). *)
Definition extract_spectral (s : src) : @smap par :=
  fold_left (fun m p => if (p_name p =? p_name (s_norm s))%Z then m else minsert (p_name p) p m)
            (s_pars s) (@nil (Z * par)).
(** Snapshot_Source::extract_spatial, Snapshot.cxx:113-133: adds to the name and to
    the map it is given. *)
Definition extract_spatial (s : src) (name : list Z) (m : @smap par) : list Z * @smap par :=
  fold_left (fun (st : list Z * @smap par) (f : Z * list par) =>
               if (fst f =? spec_key)%Z then st
               else ((fst st ++ [fst f])%list,
                     fold_left (fun m p => minsert (p_name p) p m) (snd f) (snd st)))
            (s_funcs s) (name, m).

(** Snapshot_Source, Snapshot.h:312-400 (the ancillary map is always empty). *)
Record ssrc := { ss_owned : bool; ss_fixed : bool; ss_norm : option par;
                 ss_kind : Z; ss_spec : @smap par; ss_shape : list Z; ss_spat : @smap par }.
(** The default constructor, Snapshot.h:312-316. *)
Definition ss_empty : ssrc :=
  {| ss_owned := false; ss_fixed := false; ss_norm := None; ss_kind := 0%Z;
     ss_spec := []; ss_shape := []; ss_spat := [] |}.
(** Snapshot_Source::latch_source, Snapshot.cxx:272-285: the old maps are emptied
    only if they are owned, the name of the spatial model never. *)
Definition latch_source (old : ssrc) (s : src) (owned : bool) : ssrc :=
  let spat0 := if ss_owned old then [] else ss_spat old in
  let sp := extract_spatial s (ss_shape old) spat0 in
  {| ss_owned := owned; ss_fixed := negb (p_free (s_norm s)); ss_norm := Some (s_norm s);
     ss_kind := s_kind s; ss_spec := extract_spectral s; ss_shape := fst sp; ss_spat := snd sp |}.

(** Snapshot_Source::compare_norm, Snapshot.cxx:141-153. *)
Definition compare_norm (p1 p2 : par) (fixed : bool) : N :=
  let st := parameter_status p1 p2 in
  let st := if negb (st =? 0) then N.lor st (if fixed then Fixed_Changed else Free_Changed) else st in
  if flag st Status_Changed then N.lor st (if fixed then Source_Freed else Source_Fixed) else st.

(** The loops of compare_spectral and compare_spatial, Snapshot.cxx:166-185 and
    199-218: on a name that differs the bits gathered so far are returned without
    being shifted. *)
Fixpoint compare_loop (type off : N) (fixed : bool) (st : N) (m1 m2 : @smap par) : outcome N :=
  match m1, m2 with
  | [], _ => Ok (N.shiftl st off)
  | _ :: _, [] => UB
  | (k1, p1) :: m1', (k2, p2) :: m2' =>
      if negb (k1 =? k2)%Z then Ok (N.lor st type)
      else let ps := parameter_status p1 p2 in
           let ps := if negb (ps =? 0) then N.lor ps (if fixed then Fixed_Changed else Free_Changed) else ps in
           compare_loop type off fixed (N.lor st ps) m1' m2'
  end.
(** Snapshot_Source::compare_spectral, Snapshot.cxx:155-186. *)
Definition compare_spectral (k1 k2 : Z) (m1 m2 : @smap par) (fixed : bool) : outcome N :=
  let type := N.lor Spec_Model_Type_Changed
                    (if fixed then Fixed_Spec_Model_Type_Changed else Free_Spec_Model_Type_Changed) in
  if negb (k1 =? k2)%Z || negb (Nat.eqb (length m1) (length m2)) then Ok type
  else compare_loop type Spec_Offset fixed 0 m1 m2.
(** Snapshot_Source::compare_spatial, Snapshot.cxx:188-219. *)
Definition compare_spatial (n1 n2 : list Z) (m1 m2 : @smap par) (fixed : bool) : outcome N :=
  let type := N.lor Spatial_Model_Type_Changed
                    (if fixed then Fixed_Spatial_Model_Type_Changed else Free_Spatial_Model_Type_Changed) in
  if negb (if list_eq_dec Z.eq_dec n1 n2 then true else false) || negb (Nat.eqb (length m1) (length m2))
  then Ok type
  else compare_loop type Spatial_Offset fixed 0 m1 m2.
(** Snapshot_Source::compare, Snapshot.cxx:299-309 (compare_ancillary, 221-239, on
    two empty maps gives 0).  A snapshot that has latched nothing has a null
    normalisation. *)
Definition compare (ss : ssrc) (other : src) : outcome N :=
  let o := latch_source ss_empty other false in
  match ss_norm ss, ss_norm o with
  | Some p1, Some p2 =>
      let n := compare_norm p1 p2 (ss_fixed ss) in
      match compare_spectral (ss_kind ss) (ss_kind o) (ss_spec ss) (ss_spec o) (ss_fixed ss) with
      | Ok sp =>
          match compare_spatial (ss_shape ss) (ss_shape o) (ss_spat ss) (ss_spat o) (ss_fixed ss) with
          | Ok xp => Ok (N.lor (N.lor n sp) xp)
          | Throw => Throw | UB => UB
          end
      | Throw => Throw | UB => UB
      end
  | _, _ => UB
  end.

(** Snapshot::source_free, Snapshot.cxx:324-327. *)
Definition source_free (s : src) : bool := p_free (s_norm s).
(** Snapshot::latch_model with owned = true, Snapshot.cxx:329-338, on the map
    [sources()] of the model. *)
Definition latch_model (model : @smap src) : @smap ssrc :=
  fold_left (fun m (e : Z * src) =>
               let m := match mfind (fst e) m with None => minsert (fst e) ss_empty m | Some _ => m end in
               match mfind (fst e) m with
               | Some old => minsert (fst e) (latch_source old (snd e) true) m
               | None => m
               end)
            model (@nil (Z * ssrc)).
(** Snapshot::compare_source, Snapshot.cxx:357-371. *)
Definition compare_source (snap : @smap ssrc) (name : Z) (s : option src) : outcome N :=
  match s with
  | None =>
      match mfind name snap with
      | Some ss => Ok (if ss_fixed ss then Free_Source_Removed else Fixed_Source_Removed)
      | None => UB
      end
  | Some s =>
      match mfind name snap with
      | None => Ok (if source_free s then Free_Source_Added else Fixed_Source_Added)
      | Some ss => compare ss s
      end
  end.
(** Snapshot::compare_model, Snapshot.cxx:373-383. *)
Fixpoint compare_model (snap : @smap ssrc) (model : @smap src) (st : N * list Z)
  : outcome (N * list Z) :=
  match model with
  | [] => Ok st
  | (name, s) :: model' =>
      match compare_source snap name (Some s) with
      | Ok c =>
          let l := if changed c then (snd st ++ [name])%list else snd st in
          compare_model snap model' (N.lor (fst st) c, l)
      | Throw => Throw | UB => UB
      end
  end.

(** What compare_latched returns. *)
Record report := { latched_status : N; changed_latched : list Z;
                   unlatched_status : N; changed_unlatched : list Z }.
(** The first loop of Snapshot::compare_latched, Snapshot.cxx:403-422. *)
Fixpoint latched_loop (snap : @smap ssrc) (model : @smap src) (latched : list Z)
    (todo : @smap ssrc) (r : report) : outcome report :=
  match todo with
  | [] => Ok r
  | (name, _) :: todo' =>
      let is_latched := existsb (Z.eqb name) latched in
      match compare_source snap name (mfind name model) with
      | Ok c =>
          latched_loop snap model latched todo'
            (if is_latched
             then {| latched_status := N.lor (latched_status r) c;
                     changed_latched := if changed c then (changed_latched r ++ [name])%list else changed_latched r;
                     unlatched_status := unlatched_status r; changed_unlatched := changed_unlatched r |}
             else {| latched_status := latched_status r; changed_latched := changed_latched r;
                     unlatched_status := N.lor (unlatched_status r) c;
                     changed_unlatched := if changed c then (changed_unlatched r ++ [name])%list
                                          else changed_unlatched r |})
      | Throw => Throw | UB => UB
      end
  end.
(** The names left in [model_set], Snapshot.cxx:395-409, 425-433: those of the model
    whose names are not in the snapshot, in order, split by [source_free]. *)
Definition new_sources (snap : @smap ssrc) (model : @smap src) (free : bool) : list Z :=
  map fst (filter (fun e => match mfind (fst e) snap with
                            | None => Bool.eqb (source_free (snd e)) free
                            | Some _ => false end) model).
(** Snapshot::compare_latched, Snapshot.cxx:385-434. *)
Definition compare_latched (snap : @smap ssrc) (model : @smap src) (latched : list Z)
  : outcome (report * list Z * list Z) :=
  match latched_loop snap model latched snap
          {| latched_status := 0; changed_latched := []; unlatched_status := 0; changed_unlatched := [] |} with
  | Ok r => Ok (r, new_sources snap model true, new_sources snap model false)
  | Throw => Throw | UB => UB
  end.

(** FitScanner.h:788-794. *)
Definition Remake_Prior := 0x1.
Definition Refactor := 0x2.
Definition Update_Free := 0x4.
Definition Update_Fixed := 0x8.
Definition Rebuild := 0x10.
(** FitScanCache::find_action_needed, FitScanner.cxx:997-1043. *)
Definition find_action_needed (snap : @smap ssrc) (model : @smap src) (templates : list Z)
  : outcome N :=
  match compare_latched snap model templates with
  | Ok (r, new_free, new_fixed) =>
      let a := 0 in
      let a := if Nat.ltb 0 (length new_free) then N.lor a Rebuild else a in
      let a := if source_freed (unlatched_status r) then N.lor a Rebuild else a in
      if flag a Rebuild then Ok a
      else
        let a := if Nat.ltb 0 (length new_fixed) || changed (unlatched_status r)
                 then N.lor a (N.lor Update_Fixed Refactor) else a in
        let a := if model_changed (latched_status r) then N.lor a (N.lor Update_Free Refactor) else a in
        let a := if norm_status_changed (latched_status r) || norm_value_changed (latched_status r)
                 then N.lor a Refactor else a in
        let a := if norm_prior_changed (latched_status r) then N.lor a Remake_Prior else a in
        Ok a
  | Throw => Throw | UB => UB
  end.

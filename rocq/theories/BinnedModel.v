(** Model of the state of the binned likelihood: src/BinnedLikelihood.cxx:148-203, 205-257,
    294-304, 323-382, 433-456, 534-592, 685-790, 864-902, 1021-1063, the header lines cited below, and of the source maps it
    keeps: src/SourceMapCache.cxx:86-148, 157-160, 222-256, src/SourceMap.cxx:380-415, 432-445,
    500-507, 552-560, 697-739, 849-892 and SourceMap.h:166-177, 324-327.

    What a source map contributes is a parameter of the model ([physics]): the functions that
    compute it are modelled in SmapModel.v and DrmModel.v.  Source names and images are numbers;
    an image stands for everything the map of a source is made from (position or template).
    Maps are in memory: no source maps file, full maps, and computePointSources is on, so the map of every source is
    built.  All sources use energy dispersion.  The likelihood has one of the four
    spectra of the fixed sources (m_fixed_counts_spec_edisp_wt, the one value() reads); the
    other three are cleared, resized and updated at the same places.  Priors, the best value so
    far, m_changingSources (only ever written) and printing are left out.  A map keeps its PSF
    when its image is rebuilt (SourceMap.cxx:711-715); this is not modelled. *)
From Coq Require Import Reals.
From Verif Require Import Base SMap.
Local Open Scope outcome_scope.

(** What the maps compute.  [ev]: the dispersion setting of the map; [q]: image and parameters
    the corrections of its dispersion cache were computed for. *)
Record physics := mk_phys {
  (** FitUtils::addSourceCounts: counts per filled pixel. *)
  ph_cnt : Z -> Z -> list Z -> Z * list Z -> list R;
  (** FitUtils::addFixedNpreds: dispersed, weighted counts per energy bin. *)
  ph_npr : Z -> Z -> list Z -> Z * list Z -> list R;
  (** Drm_Cache::update, SourceMap::counts_spectra(flag, true). *)
  ph_tot : Z -> Z -> Z * list Z -> list R }.

(** A source object: identity (address), what its map is made from, the values of its spectral parameters,
    and whether any of them is free (Source.cxx:205-207). *)
Record src := mk_bsrc { s_id : nat; s_img : Z; s_par : list Z; s_free : bool }.

(** SourceMap: m_src, the image m_model holds (None: empty), the image m_npreds was computed
    from (None: empty), m_dataCleared, m_model_is_local, m_save_model, m_edisp_val, the
    parameters m_specVals was computed for (None: empty), m_latchedModelPars, and what
    m_drm_cache was computed for. *)
Record cmap := mk_cm { c_src : nat; c_data : option Z; c_npd : option Z; c_cleared : bool; c_local : bool; c_save : bool;
  c_ev : Z; c_spec : option (list Z); c_latched : list Z; c_drm : Z * list Z }.

Record bl := mk_bl {
  b_src : smap src; b_fix : list Z; b_cnt : list R; b_fs : list R; b_maps : smap cmap;
  b_upd : bool; b_model : list R; b_cur : bool; b_ev : Z; b_kmin : nat; b_kmax : nat }.
(** BinnedLikeConfig: edisp_val at construction, use_single_fixed_map, save_all_srcmaps,
    delete_local_fixed. *)
Record config := mk_cfg { g_ev : Z; g_single : bool; g_saveall : bool; g_dlf : bool }.

(** A call returns with a value, throws (the state left is recorded), or is undefined. *)
Inductive res (A : Type) := Done (st : bl) (a : A) | Threw (st : bl) | Undef.
Arguments Done {A}. Arguments Threw {A}. Arguments Undef {A}.
Definition rbind {A B} (r : res A) (f : bl -> A -> res B) : res B :=
  match r with Done st a => f st a | Threw st => Threw st | Undef => Undef end.

Definition with_maps (st : bl) (m : smap cmap) := mk_bl (b_src st) (b_fix st) (b_cnt st) (b_fs st) m (b_upd st) (b_model st) (b_cur st) (b_ev st) (b_kmin st) (b_kmax st).
Definition with_src (st : bl) (m : smap src) := mk_bl m (b_fix st) (b_cnt st) (b_fs st) (b_maps st) (b_upd st) (b_model st) (b_cur st) (b_ev st) (b_kmin st) (b_kmax st).
Definition with_fix (st : bl) (l : list Z) := mk_bl (b_src st) l (b_cnt st) (b_fs st) (b_maps st) (b_upd st) (b_model st) (b_cur st) (b_ev st) (b_kmin st) (b_kmax st).
Definition with_cnt (st : bl) (l : list R) := mk_bl (b_src st) (b_fix st) l (b_fs st) (b_maps st) (b_upd st) (b_model st) (b_cur st) (b_ev st) (b_kmin st) (b_kmax st).
Definition with_fs (st : bl) (l : list R) := mk_bl (b_src st) (b_fix st) (b_cnt st) l (b_maps st) (b_upd st) (b_model st) (b_cur st) (b_ev st) (b_kmin st) (b_kmax st).
Definition with_model (st : bl) (l : list R) (c : bool) := mk_bl (b_src st) (b_fix st) (b_cnt st) (b_fs st) (b_maps st) (b_upd st) l c (b_ev st) (b_kmin st) (b_kmax st).
Definition put_map (st : bl) (n : Z) (m : cmap) := with_maps st (minsert n m (b_maps st)).

(** ** Source maps *)
(** SourceMap.cxx:697-739. *)
Definition make_model (m : cmap) (s : src) : cmap :=
  mk_cm (c_src m) (Some (s_img s)) (Some (s_img s)) (c_cleared m) true (c_save m) (c_ev m) (Some (s_par s)) (c_latched m) (c_drm m).
(** SourceMap.cxx:75-110: the constructor; the cache of the dispersion is filled at once. *)
Definition new_map (g_ev : Z) (save : bool) (s : src) : cmap :=
  mk_cm (s_id s) (Some (s_img s)) (Some (s_img s)) false true save g_ev (Some (s_par s)) [] (s_img s, s_par s).
(** SourceMap.cxx:849-864. *)
Definition uncleared (m : cmap) : cmap := mk_cm (c_src m) (c_data m) (c_npd m) false (c_local m) (c_save m) (c_ev m) (c_spec m) (c_latched m) (c_drm m).
Definition reloadIfCleared (m : cmap) (s : src) : cmap := if c_cleared m then uncleared (make_model m s) else m.
(** SourceMap.h:324-327. *)
Definition setSaveModel (m : cmap) (s : src) (v : bool) : cmap :=
  let m := mk_cm (c_src m) (c_data m) (c_npd m) (c_cleared m) (c_local m) v (c_ev m) (c_spec m) (c_latched m) (c_drm m) in
  if v then reloadIfCleared m s else m.
(** SourceMap.h:166-177. *)
Definition clear_model (m : cmap) (force : bool) : cmap :=
  if force || (negb (c_save m) && negb (c_local m))
  then mk_cm (c_src m) None (c_npd m) true false (c_save m) (c_ev m) (c_spec m) (c_latched m) (c_drm m) else m.
(** SourceMap.cxx:380-395, 866-875: m_loaded is true for a map built in memory. *)
Definition setSource (m : cmap) (s : src) : cmap :=
  if c_src m =? s_id s then (if c_save m && (match c_data m with None => true | Some _ => false end) then make_model m s else m)
  else mk_cm (s_id s) (c_data m) None (c_cleared m) false (c_save m) (c_ev m) None (c_latched m) (c_drm m).
(** SourceMap.cxx:405-415. *)
Definition setSpectralValues (m : cmap) (s : src) (latch : bool) : cmap :=
  mk_cm (c_src m) (c_data m) (c_npd m) (c_cleared m) (c_local m) (c_save m) (c_ev m) (Some (s_par s)) (if latch then s_par s else c_latched m) (c_drm m).
(** SourceMap.cxx:485-497 and 210-222: m_npreds and m_weighted_npreds are computed when empty, which makes the
    image when that is empty too. *)
Definition npreds (m : cmap) (s : src) : cmap :=
  match c_npd m with
  | Some _ => m
  | None => match c_data m with
            | None => make_model m s
            | Some i => mk_cm (c_src m) (c_data m) (Some i) (c_cleared m) (c_local m) (c_save m) (c_ev m) (c_spec m) (c_latched m) (c_drm m)
            end
  end.
(** SourceMap.cxx:398-402 with force, 500-507, Drm.cxx:332-436: the spectral values are set again
    and the totals and corrections computed from them. *)
Definition update_drm (m : cmap) (s : src) : cmap :=
  let m := npreds (setSpectralValues m s false) s in
  match c_npd m with
  | Some i => mk_cm (c_src m) (c_data m) (c_npd m) (c_cleared m) (c_local m) (c_save m) (c_ev m) (c_spec m) (c_latched m) (i, s_par s)
  | None => m
  end.
(** SourceMap.cxx:432-445. *)
Definition list_eqb (a b : list Z) : bool := (length a =? length b) && forallb (fun p => (fst p =? snd p)%Z) (combine a b).
Definition spectrum_changed (m : cmap) (s : src) : bool := negb (list_eqb (s_par s) (c_latched m)).
(** SourceMap.cxx:552-560; the new image has the size of the old one. *)
Definition setImage (m : cmap) (i : Z) : cmap :=
  mk_cm (c_src m) (Some i) (Some i) (c_cleared m) true (c_save m) (c_ev m) (c_spec m) (c_latched m) (c_drm m).

Section Like.
Context (ph : physics) (g : config).
(** Number of filled pixels and of energy bins; firstPixels() of the data cache. *)
Context (nfilled nbins : nat) (first : list nat).

(** SourceMapCache.cxx:112-148; update_drm_cache without force does nothing because the DRM is the same object. *)
Definition getSourceMap (st : bl) (n : Z) (s : src) : bl * cmap :=
  let m := match mfind n (b_maps st) with Some m => setSource m s | None => new_map (b_ev st) (g_saveall g) s end in
  (put_map st n m, m).

(** The sums of FitUtils.cxx:2058-2156 over pixels or bins. *)
Fixpoint vacc (sign : R) (buf add : list R) : list R :=
  match buf, add with x :: buf', a :: add' => (x + sign * a)%R :: vacc sign buf' add' | _, _ => buf end.
Definition sign_of (subtract : bool) : R := if subtract then (-1)%R else 1%R.

(** BinnedLikelihood.cxx:1021-1055 with a map given; [buf] is the buffer. *)
Definition addSourceCounts (st : bl) (buf : list R) (n : Z) (s : src) (m : cmap) (subtract latch : bool) : res (list R * cmap) :=
  if negb (length buf =? nfilled) then Threw st else
  let m := setSpectralValues (reloadIfCleared m s) s latch in
  match c_data m with
  | None => Undef
  | Some i =>
      let buf := vacc (sign_of subtract) buf (ph_cnt ph (c_ev m) i (s_par s) (c_drm m)) in
      let m := if negb (c_save m) && existsb (Z.eqb n) (b_fix st) then clear_model m (g_dlf g) else m in
      Done (put_map st n m) (buf, m)
  end.
(** BinnedLikelihood.cxx:1057-1063. *)
Definition addFixedNpreds (st : bl) (n : Z) (s : src) (m : cmap) (subtract : bool) : res cmap :=
  if negb (length (b_fs st) =? nbins) then Undef else
  let m := npreds m s in
  let m := match c_spec m with None => setSpectralValues m s false | Some _ => m end in
  match c_npd m, c_spec m with
  | Some i, Some p => Done (put_map (with_fs st (vacc (sign_of subtract) (b_fs st) (ph_npr ph (c_ev m) i p (c_drm m)))) n m) m
  | _, _ => Undef
  end.

(** BinnedLikelihood.cxx:864-902. *)
Definition addFixedSource (st : bl) (n : Z) : res unit :=
  match mfind n (b_src st) with
  | None => Threw st
  | Some s =>
      if existsb (Z.eqb n) (b_fix st) then Threw st else
      let st := with_fix st (b_fix st ++ [n]) in
      let (st, m) := getSourceMap st n s in
      let m := reloadIfCleared m s in
      let m := if g_saveall g then setSaveModel m s true else m in
      rbind (addSourceCounts (put_map st n m) (b_cnt st) n s m false true) (fun st bm =>
      let (buf, m) := (bm : list R * cmap) in
      let st := with_cnt st buf in
      let m := reloadIfCleared m s in
      rbind (addFixedNpreds (put_map st n m) n s m false) (fun st m =>
      let m := if c_save m then m else clear_model m (g_dlf g) in
      Done (put_map st n m) tt))
  end.

(** BinnedLikelihood.cxx:685-728 with process_all = false. *)
Fixpoint build_loop (st : bl) (l : list (Z * src)) : res unit :=
  match l with
  | [] => Done st tt
  | (n, s) :: l' =>
      if s_free s then build_loop (fst (getSourceMap st n s)) l'
      else rbind (addFixedSource st n) (fun st _ => build_loop st l')
  end.
Definition buildFixedModelWts (st : bl) : res unit :=
  build_loop (with_fs (with_cnt (with_fix st []) (repeat 0%R nfilled)) (repeat 0%R nbins)) (b_src st).

(** BinnedLikelihood.cxx:732-790. *)
Definition count_in (l : list Z) (n : Z) : nat := length (filter (Z.eqb n) l).
Definition save_map (st : bl) (n : Z) (s : src) : bl := let (st, m) := getSourceMap st n s in put_map st n (setSaveModel m s true).
(** Lines 748-759. *)
Fixpoint check_listed (st : bl) (l : list (Z * src)) (ch : bool) (fixed : list Z) : bl * bool * list Z :=
  match l with
  | [] => (st, ch, fixed)
  | (n, s) :: l' =>
      if s_free s then check_listed st l' ch fixed
      else if count_in (b_fix st) n =? 1 then check_listed st l' ch (fixed ++ [n])
      else check_listed (save_map st n s) l' true (fixed ++ [n])
  end.
(** Lines 764-770; m_sources.at throws. *)
Fixpoint save_freed (st : bl) (l : list Z) (fixed : list Z) : res unit :=
  match l with
  | [] => Done st tt
  | n :: l' => if count_in fixed n =? 1 then save_freed st l' fixed
               else match mfind n (b_src st) with
                    | None => Threw st
                    | Some s => save_freed (save_map st n s) l' fixed
                    end
  end.
(** Lines 774-788. *)
Fixpoint check_spectra (st : bl) (l : list (Z * src)) (ch : bool) : bl * bool :=
  match l with
  | [] => (st, ch)
  | (n, s) :: l' =>
      if s_free s then check_spectra st l' ch
      else let (st, m) := getSourceMap st n s in
           if spectrum_changed m s then check_spectra (put_map st n (setSaveModel m s true)) l' true
           else check_spectra st l' ch
  end.
Definition fixedModelUpdated (st : bl) : res bool :=
  if (length (b_fs st) =? 0) && negb (length (b_fix st) =? 0) then Done st true else
  let '(st, ch, fixed) := check_listed st (b_src st) false [] in
  rbind (if length fixed =? length (b_fix st) then Done st ch else rbind (save_freed st (b_fix st) fixed) (fun st _ => Done st true))
    (fun st ch => let (st, ch) := check_spectra st (b_src st) ch in Done st ch).

(** SourceMapCache.cxx:93-103. *)
Definition NpredValue (st : bl) (n : Z) (s : src) : res R :=
  let (st, m) := getSourceMap st n s in
  let m := update_drm (setSpectralValues m s false) s in
  match mfold (fun t k => x <- vec_get (ph_tot ph (b_ev st) (c_ev m) (c_drm m)) k ;; Ok (t + x)%R) (seq (b_kmin st) (b_kmax st - b_kmin st)) 0%R with
  | Ok t => Done (put_map st n m) t
  | _ => Undef
  end.

(** BinnedLikelihood.cxx:562-575. *)
Fixpoint sum_loop (st : bl) (l : list (Z * src)) (npred : R) (counts : list R) : res (R * list R) :=
  match l with
  | [] => Done st (npred, counts)
  | (n, s) :: l' =>
      rbind (NpredValue st n s) (fun st t =>
      if count_in (b_fix st) n =? 0 then
        let (st, m) := getSourceMap st n s in
        let m := reloadIfCleared m s in
        rbind (addSourceCounts (put_map st n m) counts n s m false false) (fun st bm => sum_loop st l' (npred + t)%R (fst bm))
      else sum_loop st l' npred counts)
  end.
(** BinnedLikelihood.cxx:577-588. *)
Definition fill_model (kmin kmax : nat) (counts : list R) : outcome (list R) :=
  mfold (fun model k =>
    j_start <- vec_get first k ;; j_stop <- vec_get first (S k) ;;
    mfold (fun model j => c <- vec_get counts j ;; vec_set model j c) (seq j_start (j_stop - j_start)) model)
    (seq kmin (kmax - kmin)) (repeat 0%R nfilled).
(** std::copy of the fixed counts over the first elements of the zeroed buffer (536-549). *)
Definition copy_over (a b : list R) : outcome (list R) :=
  if length a <=? length b then Ok (a ++ skipn (length a) b) else UB.
(** BinnedLikelihood.cxx:534-592. *)
Definition computeModelMap_internal (st : bl) : res R :=
  rbind (fixedModelUpdated st) (fun st ch =>
  rbind (if ch && b_upd st then buildFixedModelWts st else Done st tt) (fun st _ =>
  match copy_over (b_cnt st) (repeat 0%R nfilled) with
  | Ok counts =>
      match mfold (fun t k => x <- vec_get (b_fs st) k ;; Ok (t + x)%R) (seq (b_kmin st) (b_kmax st - b_kmin st)) 0%R with
      | Ok npred =>
          rbind (sum_loop st (b_src st) npred counts) (fun st nc =>
          match fill_model (b_kmin st) (b_kmax st) (snd nc) with
          | Ok model => Done (with_model st model true) (fst nc)
          | _ => Undef
          end)
      | _ => Undef
      end
  | _ => Undef
  end)).
(** BinnedLikelihood.cxx:160-203 up to the computation of the sum from m_model and npred, which is
    [binned_value] of SmapModel.v. *)
Definition value (st : bl) : res (R * list R) :=
  rbind (computeModelMap_internal st) (fun st npred => Done st (npred, b_model st)).
(** BinnedLikelihood.cxx:205-231: the model the gradient divides the data by, and the sources
    whose derivatives are taken, in order. *)
Fixpoint grad_sources (st : bl) (l : list (Z * src)) : bl * list Z :=
  match l with
  | [] => (st, [])
  | (n, s) :: l' =>
      if count_in (b_fix st) n =? 0 then
        let (st, m) := getSourceMap st n s in
        let st := put_map st n (setSpectralValues m s false) in
        let (st, names) := grad_sources st l' in (st, n :: names)
      else grad_sources st l'
  end.
Definition gradient_model (st : bl) : res (list R * list Z) :=
  rbind (if b_cur st then Done st tt else rbind (computeModelMap_internal st) (fun st _ => Done st tt)) (fun st _ =>
  let (st, names) := grad_sources st (b_src st) in Done st (b_model st, names)).

(** BinnedLikelihood.cxx:323-340 with loadMap and no map given; SourceModel.cxx:197-206. *)
Definition addSource (st : bl) (n : Z) (s : src) : res unit :=
  match mfind n (b_src st) with
  | Some _ => Threw st
  | None =>
      let st := with_src st (minsert n s (b_src st)) in
      if g_single g && negb (s_free s) then addFixedSource st n else Done (fst (getSourceMap st n s)) tt
  end.
(** std::vector::erase of the first occurrence. *)
Fixpoint remove_first (n : Z) (l : list Z) : list Z :=
  match l with [] => [] | x :: l' => if (n =? x)%Z then l' else x :: remove_first n l' end.
(** BinnedLikelihood.cxx:352-372; source() throws for an unknown name. *)
Definition deleteSource (st : bl) (n : Z) : res unit :=
  rbind (if existsb (Z.eqb n) (b_fix st) then
           match mfind n (b_src st) with
           | None => Threw st
           | Some s =>
               let (st, m) := getSourceMap st n s in
               rbind (addSourceCounts st (b_cnt st) n s m true false) (fun st bm =>
               let (buf, m) := (bm : list R * cmap) in
               rbind (addFixedNpreds (with_cnt st buf) n s m true) (fun st _ => Done (with_fix st (remove_first n (b_fix st))) tt))
           end
         else Done st tt) (fun st _ =>
  match mfind n (b_src st) with
  | None => Threw st
  | Some _ => Done (with_src st (merase n (b_src st))) tt
  end).

Definition set_src (st : bl) (n : Z) (f : src -> src) : res unit :=
  match mfind n (b_src st) with None => Threw st | Some s => Done (with_src st (minsert n (f s) (b_src st))) tt end.
Definition with_par (p : list Z) (s : src) : src := mk_bsrc (s_id s) (s_img s) p (s_free s).
Definition with_free (b : bool) (s : src) : src := mk_bsrc (s_id s) (s_img s) (s_par s) b.
Definition uncurrent (st : bl) : bl := with_model st (b_model st) false.
Definition par_update (f : Z -> list Z -> list Z) (m : smap src) : smap src :=
  map (fun ns => (fst ns, if s_free (snd ns) then with_par (f (fst ns) (s_par (snd ns))) (snd ns) else snd ns)) m.

Inductive op :=
| OAdd (n : Z) (s : src)
| ODelete (n : Z)
(** SourceModel::setParam (SourceModel.cxx:321-334): the flag m_modelIsCurrent stays. *)
| OSetParam (n : Z) (p : list Z)
(** Freeing or fixing all parameters of a source through its spectrum, then syncParams. *)
| OSetFree (n : Z) (b : bool)
(** BinnedLikelihood.cxx:300-304: new values for the free parameters. *)
| OSetFreeValues (f : Z -> list Z -> list Z)
(** BinnedLikelihood.cxx:378-382. *)
| OSync
(** BinnedLikelihood.h:205-210. *)
| OKlims (kmin kmax : nat)
(** BinnedLikelihood.h:225-233: compares with the configuration given at construction and
    changes the copy the cache of maps has (SourceMapCache.h:101-103, 411). *)
| OSetEdisp (v : Z)
(** BinnedLikelihood.h:198-200. *)
| OUpdateFixed (b : bool)
(** BinnedLikelihood.cxx:440-451; SourceMapCache.cxx:222-245. *)
| OLoadMap (n : Z) (recreate build : bool)
(** SourceMapCache.cxx:157-160. *)
| OEraseMap (n : Z)
(** BinnedLikelihood.cxx:453-457; SourceMapCache.cxx:248-256. *)
| OSetImage (n : Z) (i : Z)
| OValue
| OGradient.

(** The result of value() or getFreeDerivs(). *)
Inductive obs := ObsNone | ObsValue (npred : R) (model : list R) | ObsGradient (model : list R) (names : list Z).
Definition quiet (r : res unit) : res obs := rbind r (fun st _ => Done st ObsNone).

Definition step (st : bl) (o : op) : res obs :=
  match o with
  | OAdd n s => quiet (addSource st n s)
  | ODelete n => quiet (deleteSource st n)
  | OSetParam n p => quiet (set_src st n (with_par p))
  | OSetFree n b => quiet (set_src st n (with_free b))
  | OSetFreeValues f => Done (uncurrent (with_src st (par_update f (b_src st)))) ObsNone
  | OSync => Done (uncurrent st) ObsNone
  | OKlims a b => Done (uncurrent (mk_bl (b_src st) (b_fix st) (b_cnt st) (b_fs st) (b_maps st) (b_upd st) (b_model st) (b_cur st) (b_ev st) a b)) ObsNone
  | OSetEdisp v =>
      if (v =? g_ev g)%Z then Done st ObsNone
      else Done (mk_bl (b_src st) (b_fix st) [] [] (b_maps st) (b_upd st) (b_model st) (b_cur st) v (b_kmin st) (b_kmax st)) ObsNone
  | OUpdateFixed b => Done (mk_bl (b_src st) (b_fix st) (b_cnt st) (b_fs st) (b_maps st) b (b_model st) (b_cur st) (b_ev st) (b_kmin st) (b_kmax st)) ObsNone
  | OLoadMap n recreate build =>
      quiet (match mfind n (b_src st) with
             | None => Threw st
             | Some s =>
                 let st := if recreate then put_map st n (new_map (b_ev st) (g_saveall g) s) else fst (getSourceMap st n s) in
                 if existsb (Z.eqb n) (b_fix st) && build then buildFixedModelWts st else Done st tt
             end)
  | OEraseMap n => Done (with_maps st (merase n (b_maps st))) ObsNone
  | OSetImage n i =>
      quiet (match mfind n (b_src st) with
             | None => Threw st
             | Some s =>
                 let (st, m) := match mfind n (b_maps st) with Some m => (st, m) | None => getSourceMap st n s end in
                 Done (put_map st n (setImage m i)) tt
             end)
  | OValue => rbind (value st) (fun st nm => Done st (ObsValue (fst nm) (snd nm)))
  | OGradient => rbind (gradient_model st) (fun st mn => Done st (ObsGradient (fst mn) (snd mn)))
  end.

(** A new likelihood object (BinnedLikelihood.cxx:112-141). *)
Definition init : bl := mk_bl [] [] (repeat 0%R nfilled) (repeat 0%R nbins) [] true [] false (g_ev g) 0 nbins.
(** The state after a history: a call that throws leaves the recorded state and the client
    goes on. *)
Fixpoint run (st : bl) (l : list op) : option bl :=
  match l with
  | [] => Some st
  | o :: l' => match step st o with
               | Done st' _ => run st' l'
               | Threw st' => run st' l'
               | Undef => None
               end
  end.
End Like.

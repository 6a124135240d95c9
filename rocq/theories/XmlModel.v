(** Source models as XML: SourceModelBuilder, SourceFactory and SourceModel::readXml,
    reReadXml.

    Numbers are reals: infinities and not-a-number are outside the model.  Not
    modelled: the [function_library] attribute (a further factory file), environment
    variables in file names, the warning of [checkRoiDist], the contents of FITS and
    text files (a file is either readable or not), the normalisation of (RA, Dec) by
    astro::SkyDir (coordinates are taken as already normalised), the complement flag
    of ScaleFactor. *)
From Verif Require Import Base XmlText AccumModel.
From Coq Require Import String Ascii Reals DecimalString.
Local Open Scope nat_scope.
Local Open Scope string_scope.
Local Open Scope list_scope.

(** optimizers::Parameter (package optimizers, not in /repo), the part the builders use. *)
Record param := mk_param {
  p_name : string; p_value : R; p_scale : R; p_min : R; p_max : R; p_free : bool }.

(** A function: its generic name, its parameters, the file it was read from ("" if
    none), the file of its scaling function ("" if none; SourceModelBuilder.cxx
    242-248), and the energies kept beside the parameters by MultipleBPL
    ([m_breakEnergies]) and PiecewisePowerLaw ([m_energies]). *)
Record func := mk_func {
  f_type : string; f_params : list param; f_file : string; f_scaling : string; f_knots : list R }.

(** Source.h 300-306: the three [apply_*] flags.  [g_computed]: the constructor
    computed the exposure (PointSource.cxx 47-50, DiffuseSource.cxx 43-45). *)
Record flags := mk_flags { g_edisp : bool; g_psf : bool; g_expo : bool; g_computed : bool }.

(** PointSource: [Position] is a SkyDirFunction; DiffuseSource: [SpatialDist] and
    [m_mapBasedIntegral]; CompositeSource: the sources of its own model, in the order
    of their names.  [m_xmlFile] of a composite is never set to anything but ""
    (CompositeSource.cxx 21, 26-33), so the branch SourceModelBuilder.cxx 306-308 is
    dead. *)
Inductive source :=
| Point (name : string) (spec : func) (g : flags) (ra dec : R)
| Diffuse (name : string) (spec : func) (g : flags) (spatial : func) (mapBased : bool)
| Composite (name : string) (spec : func) (g : flags) (members : list source).

Definition s_name (s : source) : string :=
  match s with Point n _ _ _ _ | Diffuse n _ _ _ _ | Composite n _ _ _ => n end.
Definition s_spec (s : source) : func :=
  match s with Point _ f _ _ _ | Diffuse _ f _ _ _ | Composite _ f _ _ => f end.
Definition s_flags (s : source) : flags :=
  match s with Point _ _ g _ _ | Diffuse _ _ g _ _ | Composite _ _ g _ => g end.
Definition set_name (n : string) (s : source) : source :=
  match s with
  | Point _ f g a d => Point n f g a d
  | Diffuse _ f g sp m => Diffuse n f g sp m
  | Composite _ f g l => Composite n f g l
  end.

Section Xml.
(** The text an ostringstream of precision 15 gives (SourceModelBuilder.cxx 56-64). *)
Variable wr : R -> string.
(** [std::stod]; [None] when it throws. *)
Variable rd : string -> option R.
(** [funcFactory.create(type)] (package optimizers); [None] when it throws. *)
Variable create : string -> option func.
(** The file can be read. *)
Variable readable : string -> bool.
(** Bounds of a new optimizers::Parameter. *)
Variables lo hi : R.
(** [SkyDir::difference] of two directions, in radians. *)
Variable separation : R * R -> R * R -> R.

(** ** Writing *)

(** SourceModelBuilder.cxx 100-116, [appendParameterNodes]. *)
Definition param_node (p : param) : node :=
  Node "parameter"
    [("name", p_name p); ("value", wr (p_value p)); ("scale", wr (p_scale p));
     ("min", wr (p_min p)); ("max", wr (p_max p)); ("free", if p_free p then "1" else "0")] [].

(** SourceModelBuilder.cxx 213-237: the functions whose file is written.  The class of
    a function is told by its generic name (FileFunction.cxx 28, ScaleFactor.cxx 31). *)
Definition writes_file (t : string) : bool :=
  (t =? "DMFitFunction") || (t =? "FileFunction") || (t =? "ScaleFactor::FileFunction").

(** SourceModelBuilder.cxx 200-251, [spectralPart]. *)
Definition spectral_node (f : func) : node :=
  Node "spectrum"
    ([("type", f_type f)] ++ (if writes_file (f_type f) then [("file", f_file f)] else []) ++
     (if f_scaling f =? "" then [] else [("scaling_file", f_scaling f)]))
    (map param_node (f_params f)).

(** SourceModelBuilder.cxx 273-282: spatial models with a file. *)
Definition spatial_file (t : string) : bool :=
  (t =? "SpatialMap") || (t =? "MapCubeFunction") || (t =? "RadialProfile").

(** SkyDirFunction.cxx 30-39: the parameters of a position. *)
Definition position_params (ra dec : R) : list param :=
  [mk_param "RA" ra 1 (-360) 360 false; mk_param "DEC" dec 1 (-90) 90 false].

(** SourceModelBuilder.cxx 178-198, [likelihoodSource], with 253-293 [addSpatialPart]
    and 295-312 [addComposite]. *)
Fixpoint source_node (s : source) : node :=
  match s with
  | Point n f _ ra dec =>
      Node "source" [("name", n); ("type", "PointSource")]
        [spectral_node f;
         Node "spatialModel" [("type", "SkyDirFunction")] (map param_node (position_params ra dec))]
  | Diffuse n f _ sp mb =>
      Node "source" [("name", n); ("type", "DiffuseSource")]
        [spectral_node f;
         Node "spatialModel"
           ([("type", f_type sp)] ++ (if spatial_file (f_type sp) then [("file", f_file sp)] else []) ++
            (if mb then [("map_based_integral", "true")] else []))
           (map param_node (f_params sp))]
  | Composite n f _ l =>
      Node "source" [("name", n); ("type", "CompositeSource")]
        [spectral_node f; Node "source_library" [] (map source_node l)]
  end.

(** SourceModelBuilder.cxx 150-159 and 318-322: the document of a model. *)
Definition library_node (functionLibrary title : string) (m : list source) : node :=
  Node "source_library"
    ((if functionLibrary =? "" then [] else [("function_library", functionLibrary)]) ++ [("title", title)])
    (map source_node m).

(** SourceModel.cxx 614-620, [writeXml]: the bytes of the file. *)
Definition writeXml (functionLibrary title : string) (m : list source) : string :=
  write (library_node functionLibrary title m).

(** ** Reading *)

(** [first_attribute(name)] and SourceFactory.cxx 141-151, [getAttributeValue]. *)
Definition attr (n : node) (k : string) : option string :=
  match find (fun a => fst a =? k) (n_attrs n) with Some a => Some (snd a) | None => None end.
Definition attr_or (n : node) (k d : string) : string :=
  match attr n k with Some v => v | None => d end.
(** SourceFactory.cxx 153-164, [getAttributeValueAsDouble]. *)
Definition attr_double (n : node) (k : string) (d : R) : R :=
  let v := attr_or n k "" in
  if v =? "" then d else match rd v with Some x => x | None => d end.
(** SourceFactory.cxx 166-179, [collectChildren]. *)
Definition children (n : node) (t : string) : list node := filter (fun c => n_tag c =? t) (n_kids n).

(** [Parameter::extractDomData] (package optimizers, not in /repo): taken to set the
    value, scale, bounds and free flag from the attributes that are present, to throw
    on a number it cannot read and on a value outside the bounds. *)
Definition get_num (n : node) (k : string) (d : R) : outcome R :=
  match attr n k with None => Ok d | Some v => match rd v with Some x => Ok x | None => Throw end end.
Definition extractDomData (n : node) (p : param) : outcome param :=
  obind (get_num n "value" (p_value p)) (fun v =>
  obind (get_num n "scale" (p_scale p)) (fun s =>
  obind (get_num n "min" (p_min p)) (fun mn =>
  obind (get_num n "max" (p_max p)) (fun mx =>
  if Rltb v mn || Rltb mx v then Throw
  else Ok (mk_param (p_name p) v s mn mx
             (match attr n "free" with None => p_free p | Some t => (t =? "1") || (t =? "true") end)))))).

(** [func->parameter(name).extractDomData(node)]: an unknown name throws. *)
Fixpoint set_named (ps : list param) (n : node) : outcome (list param) :=
  match ps with
  | [] => Throw
  | p :: ps => if p_name p =? attr_or n "name" "" then obind (extractDomData n p) (fun p => Ok (p :: ps))
               else obind (set_named ps n) (fun ps => Ok (p :: ps))
  end.

(** [std::atoi] on unsigned decimal text: the leading digits. *)
Fixpoint atoi_acc (acc : nat) (s : string) : nat :=
  match s with
  | String c s => let d := nat_of_ascii c in
                  if ((48 <=? d) && (d <=? 57))%nat then atoi_acc (10 * acc + (d - 48)) s else acc
  | EmptyString => acc
  end.
Definition atoi (s : string) : nat := atoi_acc 0 s.
(** [ostringstream << size_t]. *)
Definition decimal (n : nat) : string := NilZero.string_of_uint (Nat.to_uint n).

(** [v.resize(idx + 1)] when [idx >= v.size()], then [v[idx] = x]. *)
Definition put (v : list R) (idx : nat) (x : R) : list R :=
  upd (if (List.length v <=? idx)%nat then vec_resize v (idx + 1) 0%R else v) idx x.

Definition new_param (n : string) (v : R) (free : bool) : param := mk_param n v 1 lo hi free.
(** [!(e[k] > e[k-1])] throws (MultipleBrokenPowerLaw.cxx 45-48, PiecewisePowerLaw.cxx 51-54). *)
Fixpoint rising (l : list R) : bool :=
  match l with x :: (y :: _) as l' => Rltb x y && rising l' | _ => true end.

(** SourceFactory.cxx 521-553 and MultipleBrokenPowerLaw.cxx 22-50. *)
Definition addParamsToMultipleBPL (f : func) (ns : list node) : outcome func :=
  let step (st : R * list R * list R) (n : node) :=
    let '(norm, idx, brk) := st in
    let name := attr_or n "name" "" in
    let norm := if name =? "Normalization" then attr_double n "value" 1 else norm in
    let idx := if prefix "Index" name then put idx (atoi (substring 5 (String.length name) name)) (attr_double n "value" 0) else idx in
    let brk := if prefix "Break" name then put brk (atoi (substring 5 (String.length name) name))
                                               (attr_double n "value" 0 * attr_double n "scale" 1)%R else brk in
    (norm, idx, brk) in
  let '(norm, idx, brk) := fold_left step ns (1%R, [], []) in
  if negb (List.length idx =? List.length brk + 1)%nat then Throw
  else if negb (rising brk) then Throw
  else Ok (mk_func (f_type f)
             (f_params f ++ [new_param "Normalization" norm true] ++
              map (fun k => new_param ("Index" +++ decimal k) (nth k idx 0%R) true) (seq 0 (List.length idx)) ++
              map (fun k => new_param ("Break" +++ decimal k) (nth k brk 0%R) false) (seq 0 (List.length brk)))
             (f_file f) (f_scaling f) brk).

(** SourceFactory.cxx 555-590 and PiecewisePowerLaw.cxx 27-56. *)
Definition addParamsToPiecewisePL (f : func) (ns : list node) : outcome func :=
  let step (st : list R * list R) (n : node) :=
    let '(ds, es) := st in
    let name := attr_or n "name" "" in
    let ds := if prefix "dNdE" name then put ds (atoi (substring 4 (String.length name) name)) 0%R else ds in
    let es := if prefix "Energy" name then put es (atoi (substring 6 (String.length name) name))
                                               (attr_double n "value" 0 * attr_double n "scale" 1)%R else es in
    (ds, es) in
  let '(ds, es) := fold_left step ns ([], []) in
  if negb (List.length ds =? List.length es)%nat then Throw
  else if negb (rising es) then Throw
  else Ok (mk_func (f_type f)
             (f_params f ++ [new_param "IndexL" (-2) true; new_param "IndexH" (-3) true] ++
              map (fun k => new_param ("dNdE" +++ decimal k) (nth k ds 0%R) true) (seq 0 (List.length ds)) ++
              map (fun k => new_param ("Energy" +++ decimal k) (nth k es 0%R) false) (seq 0 (List.length es)))
             (f_file f) (f_scaling f) es).

(** [apply_*]: absent or "" or "true" means yes, "false" no, anything else throws
    (SourceFactory.cxx 313-324, 506-510). *)
Definition apply_flag (n : node) (k : string) : outcome bool :=
  let v := attr_or n k "" in
  if v =? "false" then Ok false else if (v =? "true") || (v =? "") then Ok true else Throw.

(** SourceFactory.cxx 457-514, [setSpectrum]: the spectrum and the energy dispersion flag. *)
Definition read_spectrum (n : node) : outcome (func * bool) :=
  let t := attr_or n "type" "" in
  let ps := children n "parameter" in
  match create t with
  | None => Throw
  | Some f0 =>
    obind (if t =? "MultipleBPL" then addParamsToMultipleBPL f0 ps
           else if t =? "PiecewisePowerLaw" then addParamsToPiecewisePL f0 ps else Ok f0) (fun f1 =>
    obind (mfold set_named ps (f_params f1)) (fun pars =>
    let file := attr_or n "file" "" in
    let scaling := attr_or n "scaling_file" "" in
    if writes_file t && negb (readable file) then Throw
    else if negb (scaling =? "") && negb (readable scaling) then Throw
    else obind (apply_flag n "apply_edisp") (fun e =>
         Ok (mk_func (f_type f1) pars (if writes_file t then file else f_file f1)
                     (if scaling =? "" then f_scaling f1 else scaling) (f_knots f1), e))))
  end.

(** SourceFactory.cxx 365-383: RA and Dec default to 0; the last parameter of each
    name counts. *)
Definition read_position (n : node) : R * R :=
  fold_left (fun p c => let name := attr_or c "name" "" in
                        (if name =? "RA" then attr_double c "value" 0 else fst p,
                         if name =? "DEC" then attr_double c "value" 0 else snd p))
            (children n "parameter") (0%R, 0%R).

(** SourceFactory.cxx 356-391, [makePointSource].  The fourth argument of the
    PointSource constructor is [verbose] (PointSource.h 89-90), so the exposure is
    computed whatever [m_requireExposure] says. *)
Definition makePointSource (require : bool) (spectrum spatial : node) : outcome source :=
  if negb (attr_or spatial "type" "" =? "SkyDirFunction") then Throw
  else let (ra, dec) := read_position spatial in
       obind (read_spectrum spectrum) (fun fe =>
       Ok (Point "" (fst fe) (mk_flags (snd fe) true true true) ra dec)).

(** SourceFactory.cxx 393-433, [makeDiffuseSource].  The shapes set their parameters a
    second time from the same node (line 420), which changes nothing. *)
Definition makeDiffuseSource (require : bool) (spectrum spatial : node) : outcome source :=
  let t := attr_or spatial "type" "" in
  match create t with
  | None => Throw
  | Some f0 =>
    obind (mfold set_named (children spatial "parameter") (f_params f0)) (fun pars =>
    let file := attr_or spatial "file" "" in
    if spatial_file t && negb (readable file) then Throw
    else let mb := if (t =? "SpatialMap") || (t =? "MapCubeFunction")
                   then attr_or spatial "map_based_integral" "" =? "true" else false in
         let sp := mk_func (f_type f0) pars (if spatial_file t then file else f_file f0) (f_scaling f0) (f_knots f0) in
         obind (read_spectrum spectrum) (fun fe =>
         Ok (Diffuse "" (fst fe) (mk_flags (snd fe) true true require) sp mb)))
  end.

(** [std::map<std::string, Source*>] as a list in the order of the names;
    [None]: the name is taken (SourceModel.cxx 197-206, SourceFactory.cxx 95-108). *)
Fixpoint add_source (s : source) (m : list source) : option (list source) :=
  match m with
  | [] => Some [s]
  | x :: m' => if String.ltb (s_name s) (s_name x) then Some (s :: m)
               else if s_name s =? s_name x then None
               else match add_source s m' with Some m' => Some (x :: m') | None => None end
  end.
Definition add_sources (l m : list source) : outcome (list source) :=
  mfold (fun m s => match add_source s m with Some m => Ok m | None => Throw end) l m.

(** SourceFactory.cxx 435-455, [makeCompositeSource], given its members. *)
Definition makeCompositeSource (spectrum : node) (members : outcome (list source)) : outcome source :=
  obind members (fun l =>
  obind (add_sources l []) (fun m =>
  obind (read_spectrum spectrum) (fun fe =>
  Ok (Composite "" (fst fe) (mk_flags (snd fe) true true false) m)))).

(** SourceFactory.cxx 311-325: flags of a source with a spatial model. *)
Definition with_flags (spatial : node) (s : source) : outcome source :=
  obind (apply_flag spatial "apply_psf") (fun p =>
  obind (apply_flag spatial "apply_exposure") (fun x =>
  let upd g := mk_flags (g_edisp g) p x (g_computed g) in
  Ok (match s with
      | Point n f g a d => Point n f (upd g) a d
      | Diffuse n f g sp m => Diffuse n f (upd g) sp m
      | Composite n f g l => Composite n f (upd g) l
      end))).

(** SourceFactory.cxx 258-333: one source element; [lib n] is what [makeSources] gives
    for a nested library.  [None]: the element yields no source. *)
Definition source_of (require addPoint : bool) (n : node) (lib : node -> outcome (list source))
    : outcome (option source) :=
  let t := attr_or n "type" "" in
  match children n "spectrum" with
  | [spectrum] =>
      if t =? "CompositeSource" then
        match children n "source_library" with
        | [l] => obind (makeCompositeSource spectrum (lib l)) (fun s => Ok (Some (set_name (attr_or n "name" "") s)))
        | _ => Throw
        end
      else match children n "spatialModel" with
           | [spatial] =>
               if addPoint && (t =? "PointSource") then
                 obind (makePointSource require spectrum spatial) (fun s =>
                 obind (with_flags spatial s) (fun s => Ok (Some (set_name (attr_or n "name" "") s))))
               else if t =? "DiffuseSource" then
                 obind (makeDiffuseSource require spectrum spatial) (fun s =>
                 obind (with_flags spatial s) (fun s => Ok (Some (set_name (attr_or n "name" "") s))))
               else Ok None
           | _ => Throw
           end
  | _ => Throw
  end.

(** SourceFactory.cxx 245-334, [makeSources].  Recursion over the document: [depth]
    is its height. *)
Fixpoint makeSources (depth : nat) (require addPoint : bool) (library : node) : outcome (list source) :=
  match depth with
  | 0 => UB
  | S depth =>
      mfold (fun l n => obind (source_of require addPoint n (makeSources depth require addPoint))
                              (fun o => Ok (match o with Some s => l ++ [s] | None => l end)))
            (children library "source") []
  end.

(** The height of a document. *)
Fixpoint height (n : node) : nat :=
  let 'Node _ _ k := n in S (fold_right (fun c h => Nat.max (height c) h) 0 k).

(** SourceModel.cxx 457-490, [readXml], with SourceFactory.cxx 219-243: the model
    afterwards and whether an exception left the call.  The factory's own map comes
    first, then its sources are added to the model one by one. *)
Fixpoint add_until (l m : list source) : list source * bool :=
  match l with
  | [] => (m, false)
  | s :: l => match add_source s m with Some m => add_until l m | None => (m, true) end
  end.
Definition readXml (require addPoint : bool) (library : node) (m : list source) : list source * bool :=
  match obind (makeSources (height library) require addPoint library) (fun l => add_sources l []) with
  | Ok l => add_until l m
  | _ => (m, true)
  end.

(** SourceModel.cxx 430-455: from the bytes of a file. *)
Definition readFile (require addPoint : bool) (text : string) (m : list source) : list source * bool :=
  match parse text with
  | None => (m, true)
  | Some l => match find (fun n => n_tag n =? "source_library") l with
              | None => (m, true)
              | Some n => readXml require addPoint n m
              end
  end.

(** ** Reading again *)

(** SourceModel.cxx 120-132, [getDoubleAttribute]. *)
Definition opt_double (n : node) (k : string) : option R :=
  match attr n k with Some v => rd v | None => None end.

(** SourceModel.cxx 134-162, [parseParameterNode].  [Parameter::setBounds] (package
    optimizers) is taken to throw when the value lies outside. *)
Definition parse_param (n : node) : outcome (option param) :=
  match attr n "name", opt_double n "value" with
  | Some name, Some v =>
      let s := match opt_double n "scale" with Some s => s | None => 1%R end in
      obind (match opt_double n "min", opt_double n "max" with
             | Some a, Some b => if Rltb v a || Rltb b v then Throw else Ok (a, b)
             | _, _ => Ok (lo, hi)
             end) (fun ab =>
      Ok (Some (mk_param name v s (fst ab) (snd ab)
                  (match attr n "free" with Some t => (t =? "1") || (t =? "true") | None => true end))))
  | _, _ => Ok None
  end.
Definition parse_params (n : node) : outcome (list param) :=
  mfold (fun l c => obind (parse_param c) (fun o => Ok (match o with Some p => l ++ [p] | None => l end)))
        (children n "parameter") [].

(** [Function::setParams(std::vector<Parameter>&)] (package optimizers, not in /repo):
    taken to throw unless there are as many parameters as the function has, and to
    replace them in order. *)
Definition set_params (f : func) (ps : list param) : outcome func :=
  match ps with
  | [] => Ok f
  | _ => if (List.length ps =? List.length (f_params f))%nat
         then Ok (mk_func (f_type f) ps (f_file f) (f_scaling f) (f_knots f)) else Throw
  end.
Definition reread_func (f : func) (n : option node) : outcome func :=
  match n with None => Ok f | Some n => obind (parse_params n) (set_params f) end.

(** SourceModel.cxx 562-579. *)
Definition reread_position (n : node) : R * R :=
  fold_left (fun p c => match attr c "name", opt_double c "value" with
                        | Some name, Some v => if name =? "RA" then (v, snd p)
                                               else if name =? "DEC" then (fst p, v) else p
                        | _, _ => p
                        end) (children n "parameter") (0%R, 0%R).
Definition first_child (n : node) (t : string) : option node := hd_error (children n t).

(** SourceModel.cxx 540-610: one source; the source afterwards and whether an
    exception left the call. *)
Definition with_spec (f : func) (s : source) : source :=
  match s with
  | Point n _ g a d => Point n f g a d
  | Diffuse n _ g sp m => Diffuse n f g sp m
  | Composite n _ g l => Composite n f g l
  end.
Definition reread_source (n : node) (s : source) : source * bool :=
  match attr n "type" with
  | None => (s, false)
  | Some t =>
    match reread_func (s_spec s) (first_child n "spectrum") with
    | Ok f =>
        let s := with_spec f s in
        if t =? "PointSource" then
          match first_child n "spatialModel", s with
          | Some sp, Point nm f g ra dec =>
              let p := reread_position sp in
              (if Rltb (1 / 10000) (separation p (ra, dec)) then Point nm f g (fst p) (snd p) else s, false)
          | _, _ => (s, false)
          end
        else if t =? "DiffuseSource" then
          match first_child n "spatialModel", s with
          | Some sp, Diffuse nm f g d mb =>
              match reread_func d (Some sp) with
              | Ok d => (Diffuse nm f g d mb, false)
              | _ => (s, true)
              end
          | _, _ => (s, false)
          end
        else (s, true)
    | _ => (s, true)
    end
  end.

(** SourceModel.cxx 512-612, [reReadXml] on a parsed library. *)
Fixpoint update_named (n : string) (f : source -> source * bool) (m : list source) : list source * bool :=
  match m with
  | [] => (m, false)
  | s :: m => if s_name s =? n then let (s, b) := f s in (s :: m, b)
              else let (m, b) := update_named n f m in (s :: m, b)
  end.
Fixpoint reread_all (ns : list node) (m : list source) : list source * bool :=
  match ns with
  | [] => (m, false)
  | n :: ns => match attr n "name" with
               | None => reread_all ns m
               | Some name => let (m, b) := update_named name (reread_source n) m in
                              if b then (m, true) else reread_all ns m
               end
  end.
Definition reReadXml (library : node) (m : list source) : list source * bool :=
  reread_all (children library "source") m.
Definition reReadFile (text : string) (m : list source) : list source * bool :=
  match parse text with
  | None => (m, true)
  | Some l => match find (fun n => n_tag n =? "source_library") l with
              | None => (m, true)
              | Some n => reReadXml n m
              end
  end.

(** ** Files for flux simulations *)

(** [std::log10], and FluxBuilder.cxx 121-141: the flux of a source, by the trapezoid rule over 100
    steps in the logarithm of the energy; [spectrum e = None] when the evaluation throws, and then the
    flux is 1. *)
Definition log10 (x : R) : R := (ln x / ln 10)%R.
Definition flux (emin emax : R) (spectrum : R -> option R) : R :=
  let d := ((log10 emax - log10 emin) / 100)%R in
  let e i := Rpower 10 (log10 emin + INR i * d) in
  match fold_left (fun acc i =>
          match acc, spectrum (e i), spectrum (e (S i)) with
          | Some acc, Some f1, Some f2 => Some (acc + 1 / 2 * (f1 + f2) * (e (S i) - e i))%R
          | _, _, _ => None
          end) (seq 0 100) (Some 0%R) with
  | Some v => v
  | None => 1%R
  end.

(** FluxBuilder.cxx 116-176, [addSource]. *)
Definition flux_source (emin emax : R) (eval : func -> R -> option R) (s : source) : node :=
  let part n v := Node "particle" [("name", n); ("value", wr v)] [] in
  Node "source"
    [("name", s_name s); ("type", s_name s); ("flux", wr (flux emin emax (eval (s_spec s))))]
    (Node "spectrum" [("escale", "MeV"); ("type", "PowerLaw")] [part "gamma" 2%R; part "emin" emin; part "emax" emax] ::
     match s with
     | Point _ _ _ ra dec => [Node "celestial_dir" [("ra", wr ra); ("dec", wr dec)] []]
     | _ => []
     end).
(** FluxBuilder.cxx 93-100, 108-113, 179-188 and SourceModel.cxx 623-628, [write_fluxXml]: the bytes of the file. *)
Definition write_fluxXml (emin emax : R) (eval : func -> R -> option R) (m : list source) : string :=
  write (Node "source_library" [("title", "Likelihood_sources")] (map (flux_source emin emax eval) m)).
End Xml.

(** AppHelpers.cxx 221-353, [addFunctionPrototypes]: the name under which each function is registered,
    and its generic name (from its constructor).  The functions of package optimizers (ConstantValue,
    PowerLaw, BrokenPowerLaw, Gaussian, AbsEdge) register themselves and are left out. *)
Definition wrapped (w : string) (l : list string) : list (string * string) :=
  map (fun f => (w +++ "::" +++ f, w +++ "::" +++ f)) l.
Definition registry : list (string * string) :=
  map (fun f => (f, f)) ["SkyDirFunction"; "RadialDisk"; "SpatialMap"; "RadialGaussian"; "BandFunction";
    "GaussianError"; "LogParabola"; "LogGaussian"; "LogNormal"; "LogNormalLog"; "MapCubeFunction";
    "RadialProfile"; "PowerLaw2"; "BrokenPowerLaw2"; "BrokenPowerLaw3"] ++
  [("MultipleBrokenPowerLaw", "MultipleBPL")] ++
  map (fun f => (f, f)) ["PiecewisePowerLaw"; "SmoothBrokenPowerLaw"; "SmoothDoubleBrokenPowerLaw"; "FileFunction";
    "ExpCutoff"; "ExpCutoffSEDPeak"; "BPLExpCutoff"; "PLSuperExpCutoff"; "PLSuperExpCutoff2";
    "PLSuperExpCutoff3"; "PLSuperExpCutoff4"; "DMFitFunction"] ++
  wrapped "EblAtten" ["PowerLaw2"; "BrokenPowerLaw2"; "LogParabola"; "BandFunction"; "SmoothBrokenPowerLaw";
    "FileFunction"; "ExpCutoff"; "BPLExpCutoff"; "PLSuperExpCutoff"; "PLSuperExpCutoff2"; "PLSuperExpCutoff3";
    "PLSuperExpCutoff4"; "BrokenPowerLaw3"; "ExpCutoffSEDPeak"] ++
  wrapped "EnergyBand" ["PowerLaw2"; "BrokenPowerLaw2"; "LogParabola"; "BandFunction"; "SmoothBrokenPowerLaw";
    "FileFunction"; "ExpCutoff"; "BPLExpCutoff"; "PLSuperExpCutoff"; "PLSuperExpCutoff2"; "PLSuperExpCutoff3";
    "PLSuperExpCutoff4"; "BrokenPowerLaw3"; "ExpCutoffSEDPeak"] ++
  wrapped "ScaleFactor" ["FileFunction"; "PowerLaw2"; "PLSuperExpCutoff"; "PLSuperExpCutoff2"; "PLSuperExpCutoff3";
    "PLSuperExpCutoff4"; "BrokenPowerLaw2"; "BrokenPowerLaw3"; "LogParabola"; "BandFunction"; "SmoothBrokenPowerLaw";
    "ExpCutoff"; "ExpCutoffSEDPeak"; "BPLExpCutoff"; "Gaussian"].

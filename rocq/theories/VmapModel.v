(** Vectors of maps: adding a source map to a vector of pixels and taking it away, the map of a
    model, the counts attributed to a source, and the files the source maps are saved in
    (SourceMap.cxx, SourceMapCache.cxx, BinnedLikelihood.cxx). *)
From Coq Require Import Reals String DecimalString.
From Verif Require Import Base AccumModel SmapModel.
Local Open Scope nat_scope.
Local Open Scope list_scope.
Local Open Scope outcome_scope.

(** ** Adding a source map to a vector of floats *)
Section Vectors.
  (** [F]: float; [D]: double.  [op o m f] is the statement [o += m * f] or [o -= m * f], with whatever
      rounding the conversions do; [one] is the literal 1. *)
  Context {F D : Type} (add sub : F -> F -> D -> F) (one : D).

  (** m_model, or m_sparseModel: the (index, value) pairs of a SparseVector, sorted by index. *)
  Inductive pixels := Whole (m : list F) | Few (l : list (nat * F)).
  (** A SourceMap: number of pixels of the data, size of m_energies, the image, m_specVals, and
      [vm_src]: what FitUtils::extractSpectralVals yields for the current parameters of m_src
      (None: m_src is null).  The image is loaded; a map of type HPX_Sparse has [Few] pixels. *)
  Record vmap := mk_vm { vm_np : nat; vm_ne : nat; vm_img : pixels; vm_spec : list D; vm_src : option (list D) }.

  (** SourceMap.cxx:405-415, the part that sets m_specVals. *)
  Definition refresh (m : vmap) : vmap :=
    match vm_src m with None => m | Some s => mk_vm (vm_np m) (vm_ne m) (vm_img m) s (vm_src m) end.
  (** SourceMap.cxx:745, 767, 795, 818: kmax < 0 ? n_energies() : kmax. *)
  Definition last_plane (m : vmap) (kmax : Z) : nat := if (kmax <? 0)%Z then vm_ne m else Z.to_nat kmax.
  (** SourceMap.cxx:746-750 and the same lines of the other three functions.  kmax < kmin makes a huge
      number of values, which no vector has (npix > 0). *)
  Definition right_size (m : vmap) (vect : list F) (kmin kmax : nat) : bool :=
    (kmin <=? kmax) && (length vect =? (kmax - kmin) * vm_np m).
  Definition spectrum_size_ok (m : vmap) (includeSpec : bool) : bool :=
    negb includeSpec || (length (vm_spec m) =? vm_ne m).

  (** SourceMap.cxx:754-762, 804-812: the loops over planes and pixels.  The two iterators are written as
      indices. *)
  Definition full_loop (op : F -> F -> D -> F) (m : vmap) (image : list F) (includeSpec : bool) (kmin kmax : nat)
      (vect : list F) : outcome (list F) :=
    mfold (fun vect ie =>
      factor <- (if includeSpec then vec_get (vm_spec m) ie else Ok one) ;;
      mfold (fun vect ipix =>
        x <- vec_get image (ie * vm_np m + ipix) ;;
        o <- vec_get vect ((ie - kmin) * vm_np m + ipix) ;;
        vec_set vect ((ie - kmin) * vm_np m + ipix) (op o x factor)) (seq 0 (vm_np m)) vect)
      (seq kmin (kmax - kmin)) vect.

  (** SourceMap.cxx:741-762; the spectral values are those of the last refresh. *)
  Definition addToVector_full (vect : list F) (includeSpec : bool) (kmin : nat) (kmax : Z) (m : vmap) (image : list F)
      : outcome (list F * vmap) :=
    let kmax := last_plane m kmax in
    if negb (right_size m vect kmin kmax) then Throw else
    if negb (spectrum_size_ok m includeSpec) then Throw else
    vect <- full_loop add m image includeSpec kmin kmax vect ;;
    Ok (vect, m).

  (** SourceMap.cxx:792-813; refreshes the spectral values. *)
  Definition subtractFromVector_full (vect : list F) (includeSpec : bool) (kmin : nat) (kmax : Z) (m : vmap) (image : list F)
      : outcome (list F * vmap) :=
    let kmax := last_plane m kmax in
    if negb (right_size m vect kmin kmax) then Throw else
    let m := if includeSpec then refresh m else m in
    vect <- full_loop sub m image includeSpec kmin kmax vect ;;
    Ok (vect, m).

  (** SourceMap.cxx:777-778, 828-829 with SparseVector.h:24-40, 314-330: from the first index not below [a]
      to before the first index above [b]. *)
  Definition window (l : list (nat * F)) (a b : nat) : list (nat * F) :=
    filter (fun e => (a <=? fst e) && (fst e <=? b)) l.

  (** SourceMap.cxx:777-789, 828-835.  [checked]: the comparison of [int ie] with the unsigned size, which
      holds for ie = -1. *)
  Definition sparse_loop (op : F -> F -> D -> F) (checked : bool) (m : vmap) (entries : list (nat * F)) (includeSpec : bool)
      (kmin kmax : nat) (vect : list F) : outcome (list F) :=
    mfold (fun vect e =>
      let ie := if includeSpec then Z.of_nat (fst e / vm_np m) else (-1)%Z in
      if checked && ((ie <? 0)%Z || (Z.of_nat (length (vm_spec m)) <=? ie)%Z) then Throw else
      factor <- (if (0 <=? ie)%Z then vec_get (vm_spec m) (Z.to_nat ie) else Ok one) ;;
      o <- vec_get vect (fst e - kmin * vm_np m) ;;
      vec_set vect (fst e - kmin * vm_np m) (op o (snd e) factor))
      (window entries (kmin * vm_np m) (kmax * vm_np m)) vect.

  (** SourceMap.cxx:764-790. *)
  Definition addToVector_sparse (vect : list F) (includeSpec : bool) (kmin : nat) (kmax : Z) (m : vmap) (entries : list (nat * F))
      : outcome (list F * vmap) :=
    let kmax := last_plane m kmax in
    if negb (right_size m vect kmin kmax) then Throw else
    let m := if includeSpec then refresh m else m in
    vect <- sparse_loop add true m entries includeSpec kmin kmax vect ;;
    Ok (vect, m).

  (** SourceMap.cxx:816-836. *)
  Definition subtractFromVector_sparse (vect : list F) (includeSpec : bool) (kmin : nat) (kmax : Z) (m : vmap) (entries : list (nat * F))
      : outcome (list F * vmap) :=
    let kmax := last_plane m kmax in
    if negb (right_size m vect kmin kmax) then Throw else
    if negb (spectrum_size_ok m includeSpec) then Throw else
    vect <- sparse_loop sub false m entries includeSpec kmin kmax vect ;;
    Ok (vect, m).

  (** SourceMap.cxx:509-533. *)
  Definition addToVector (vect : list F) (includeSpec : bool) (kmin : nat) (kmax : Z) (m : vmap) : outcome (list F * vmap) :=
    match vm_img m with
    | Few l => addToVector_sparse vect includeSpec kmin kmax m l
    | Whole i => addToVector_full vect includeSpec kmin kmax m i
    end.
  Definition subtractFromVector (vect : list F) (includeSpec : bool) (kmin : nat) (kmax : Z) (m : vmap) : outcome (list F * vmap) :=
    match vm_img m with
    | Few l => subtractFromVector_sparse vect includeSpec kmin kmax m l
    | Whole i => subtractFromVector_full vect includeSpec kmin kmax m i
    end.

  (** SourceMapCache.cxx:421-430, BinnedLikelihood.cxx:850-854 (kmin = 0, kmax = -1), CompositeSource.cxx:259-270;
      the maps of the sources are in the cache (getSourceMap, SourceMapCache.cxx:112-147, leaves the
      spectral values of a cached map of the same source as they are). *)
  Definition fillSummedSourceMap (maps : list vmap) (model : list F) (kmin : nat) (kmax : Z) : outcome (list F) :=
    mfold (fun model m => vm <- addToVector model true kmin kmax m ;; Ok (fst vm)) maps model.
End Vectors.

Arguments pixels : clear implicits.
Arguments vmap : clear implicits.

(** ** The map of a model *)
(** The cache of source maps: name and map.  [build] makes (or reads from the file) the map of a source that is
    not cached; None: SourceMapCache.cxx:133-137, a point source when point sources are not computed, for which a
    null pointer is stored and then dereferenced. *)
Section ModelMap.
  Context (build : string -> option smap).
  Definition cache := list (string * smap).
  Definition cached (c : cache) (n : string) : option smap :=
    match find (fun e => (fst e =? n)%string) c with Some e => Some (snd e) | None => None end.
  (** SourceMapCache.cxx:112-147. *)
  Definition getSourceMap (c : cache) (n : string) : outcome (smap * cache) :=
    match cached c n with
    | Some s => Ok (s, c)
    | None => match build n with Some s => Ok (s, (n, s) :: c) | None => UB end
    end.
  (** SourceMapCache.cxx:157-160. *)
  Definition eraseSourceMap (c : cache) (n : string) : cache := filter (fun e => negb (fst e =? n)%string) c.

  (** SourceMapCache.cxx:337-349, 371-390 with FitUtils::updateModelMap (SmapModel.v); [size] is
      data_map_size().  The correction factors and spectra of the maps are up to date (C24, C46). *)
  Definition computeModelMap_one (size : nat) (use_mask : bool) (n : string) (map : list R) (c : cache) : outcome (list R * cache) :=
    let map := vec_resize map size 0%R in
    let has := match cached c n with Some _ => true | None => false end in
    sc <- getSourceMap c n ;;
    map <- updateModelMap map (fst sc) use_mask ;;
    Ok (map, if has then snd sc else eraseSourceMap (snd sc) n).

  (** SourceMapCache.cxx:351-369. *)
  Definition computeModelMap (save_all : bool) (size : nat) (use_mask : bool) (srcs : list string) (map : list R) (c : cache)
      : outcome (list R * cache) :=
    mfold (fun mc n =>
      let has := match cached (snd mc) n with Some _ => true | None => false end in
      sc <- getSourceMap (snd mc) n ;;
      map <- updateModelMap (fst mc) (fst sc) use_mask ;;
      Ok (map, if negb has && negb save_all then eraseSourceMap (snd sc) n else snd sc))
      srcs (vec_resize map size 0%R, c).
End ModelMap.

(** ** The observed counts attributed to a source *)
(** BinnedLikelihood.cxx:935-966.  [model] is m_model (one entry per filled pixel), current; a quotient by zero is no number
    and is UB here. *)
Definition countsSpectrum (dc : dcache) (data : list R) (np : nat) (model : list R) (s : smap) (kmin kmax : nat)
    : outcome (list R) :=
  counts <- addSourceCounts (repeat 0%R (length (dc_filled dc))) s dc false ;;
  mfold (fun spectrum k =>
    j_start <- vec_get (dc_first dc) k ;; j_stop <- vec_get (dc_first dc) (S k) ;;
    mfold (fun spectrum j =>
      c <- vec_get counts j ;; m <- vec_get model j ;;
      (if Reqb m 0 then UB else
       ipix <- vec_get (dc_filled dc) j ;;
       d <- vec_get data (k * np + ipix) ;;
       x <- vec_get spectrum (k - kmin) ;;
       vec_set spectrum (k - kmin) (x + c / m * d)%R)) (seq j_start (j_stop - j_start)) spectrum)
    (seq kmin (kmax - kmin)) (repeat 0%R (kmax - kmin)).

(** BinnedLikelihood.cxx:939-944. *)
Definition spectrum_range (use_klims : bool) (m_kmin m_kmax num_ebins : nat) : nat * nat :=
  if use_klims then (m_kmin, m_kmax) else (0, num_ebins).

(** ** The files of source maps *)
Section Files.
  (** [V]: the contents of an extension. *)
  Context {V : Type}.
  Definition files := string -> option (list (string * V)).
  Definition extension (f : files) (file ext : string) : option V :=
    match f file with
    | None => None
    | Some l => match find (fun e => (fst e =? ext)%string) l with Some e => Some (snd e) | None => None end
    end.
  Definition put_file (f : files) (file : string) (l : list (string * V)) : files :=
    fun g => if (g =? file)%string then Some l else f g.
  (** FileUtils::fileHasExtension, FileUtils.cxx:48-56. *)
  Definition fileHasExtension (f : files) (file ext : string) : bool :=
    match extension f file ext with Some _ => true | None => false end.
  (** SourceMapCache.cxx:477-503: the image of an existing extension is replaced. *)
  Definition replaceSourceMap (f : files) (file ext : string) (v : V) : files :=
    match f file with
    | None => f
    | Some l => put_file f file (map (fun e => if (fst e =? ext)%string then (ext, v) else e) l)
    end.
  (** SourceMapCache.cxx:505-530: a new extension at the end of the file, which is made if missing. *)
  Definition appendSourceMap (f : files) (file ext : string) (v : V) : files :=
    put_file f file (match f file with None => [] | Some l => l end ++ [(ext, v)]).

  (** SourceMapCache.cxx:281-290: the name of the [ifile]-th file. *)
  Definition part_name (base : string) (ifile : nat) : string :=
    (base ++ "_" ++ NilZero.string_of_uint (Nat.to_uint ifile) ++ ".fits")%string.

  (** SourceMapCache.cxx:261-312.  [cache]: the maps in memory. *)
  Definition save_loop (base : string) (n : nat) (cache : string -> option V) (replace : bool) (srcs : list string)
      (st : nat * nat * string * files) : nat * nat * string * files :=
    fold_left (fun st src =>
      let '(i, ifile, out, f) := st in
      let '(ifile, out) :=
        if 499 <? n then
          if i mod 500 =? 0 then
            let ifile := if 0 <? i then S ifile else ifile in (ifile, part_name base ifile)
          else (ifile, out)
        else (ifile, out) in
      let f :=
        match cache src with
        | None => f
        | Some v => if fileHasExtension f out src then (if replace then replaceSourceMap f out src v else f)
                    else appendSourceMap f out src v
        end in
      (S i, ifile, out, f)) srcs st.
  Definition cache_saveSourceMaps (f : files) (base : string) (srcs : list string) (cache : string -> option V) (replace : bool) : files :=
    snd (save_loop base (length srcs) cache replace srcs (0, 0, base, f)).

  (** BinnedLikelihood.cxx:459-486 without the weights map.  [counts]: the extensions of a fresh file,
      writeOutput or writeEmptyOutput, which replaces a file of that name.  No file has the empty name. *)
  Definition saveSourceMaps (f : files) (m_srcMapsFile filename : string) (counts : list (string * V)) (srcs : list string)
      (cache : string -> option V) (replace : bool) : files * string :=
    let file := if (filename =? "")%string then m_srcMapsFile else filename in
    let exists_ := negb (filename =? "")%string && match f filename with Some _ => true | None => false end in
    let f := if exists_ then f else put_file f file counts in
    (cache_saveSourceMaps f file srcs cache replace, file).

  (** SourceMapCache.cxx:125-129: where the map of a source that is not in memory is looked for. *)
  Definition found_in_file (f : files) (m_srcMapsFile src : string) : option V := extension f m_srcMapsFile src.
End Files.

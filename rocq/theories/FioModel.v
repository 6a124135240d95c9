(** Model of what is written to and read from files: src/FileUtils.cxx 58-185, 372-546, 576-617, 637-884,
    src/SourceModel.cxx 321-334, 354-364 (looking up a parameter), src/CountsMapHealpix.cxx 215-234, and the calls in
    src/SourceMapCache.cxx 477-588, src/PSFUtils.cxx (the planes of a partial map).

    A FITS table has a number of rows, and columns of that length; writing beyond the last row adds rows, in which the other
    columns are zero.  The columns are "PIX", "CHANNEL1", "CHANNEL2", ... and others.  Numbers are not rounded on writing.
    Keywords that are not read back are left out. *)
From Coq Require Import Reals List Bool Arith String Lia.
From Verif Require Import Base AccumModel SparseModel DrmModel.
Import ListNotations.
Local Open Scope string_scope.
Local Open Scope list_scope.
Local Open Scope nat_scope.

(** ** Maps in tables of pixels *)
Section Dense.
Context {T : Type}.
Variable zero : T.
Inductive colname := Pix | Channel (n : nat) | Other (s : string).
Definition colname_eqb (a b : colname) : bool :=
  match a, b with Pix, Pix => true | Channel n, Channel m => n =? m | Other s, Other t => String.eqb s t | _, _ => false end.
Record table := mk_table { t_rows : nat; t_cols : list (colname * list T) }.
(** appendTable. *)
Definition new_table : table := mk_table 0 [].
Definition pad (n : nat) (l : list T) : list T := l ++ repeat zero (n - length l).
(** FileUtils.cxx 445-452, 424-430: the column is added at the end if there is none. *)
Definition need_column (t : table) (c : colname) : table :=
  if existsb (fun x => colname_eqb (fst x) c) (t_cols t) then t else mk_table (t_rows t) (t_cols t ++ [(c, repeat zero (t_rows t))]).
(** FileUtils.cxx 453-457, 431-436: rows 0, 1, ... of a column. *)
Definition write_column (t : table) (c : colname) (vals : list T) : table :=
  let rows := Nat.max (t_rows t) (length vals) in
  mk_table rows (map (fun x => if colname_eqb (fst x) c then (fst x, vals ++ skipn (length vals) (pad rows (snd x))) else (fst x, pad rows (snd x))) (t_cols t)).

(** FileUtils.cxx 398-460; reading past the end of the vector is undefined.  [pix]: the pixel numbers, unless all-sky;
    kmax < 0 stands for all energies and is left out. *)
Definition slice (l : list T) (i n : nat) : outcome (list T) := if length l <? i + n then UB else Ok (firstn n (skipn i l)).
Definition replace_healpix (t : table) (npix : nat) (pix : option (list T)) (data : list T) (kmin kmax : nat) : outcome table :=
  let t1 := match pix with Some p => write_column (need_column t Pix) Pix p | None => t end in
  mfold (fun s k =>
    obind (slice data ((k - kmin) * npix) npix) (fun vals =>
    Ok (write_column (need_column s (Channel (k - kmin + 1))) (Channel (k - kmin + 1)) vals))) (seq kmin (kmax - kmin)) t1.
(** FileUtils.cxx 594-603. *)
Definition append_healpix (npix : nat) (pix : option (list T)) (data : list T) (kmin kmax : nat) : outcome table :=
  replace_healpix new_table npix pix data kmin kmax.
(** FileUtils.cxx 91-127: the columns whose name starts with "channel", in their order. *)
Definition is_channel (c : colname) : bool := match c with Channel _ => true | _ => false end.
Definition read_dense (t : table) : list T * nat :=
  let cs := filter (fun x => is_channel (fst x)) (t_cols t) in (concat (map snd cs), length cs).

(** ** Maps in images *)
(** The sizes of the image are those of the map; [i_planes]: NAXIS3. *)
Record image := mk_image { i_planes : nat; i_data : list T }.
(** FileUtils.cxx 372-396; copying from past the end of the vector is undefined.  Setting an image to a vector of another
    size is not modelled (UB). *)
Definition replace_wcs (im : image) (npix ndata : nat) (data : list T) (kmin kmax : nat) : outcome image :=
  if kmax - kmin =? ndata then (if length data =? i_planes im * npix then Ok (mk_image (i_planes im) data) else UB)
  else obind (slice data (kmin * npix) ((kmax - kmin) * npix)) (fun part => Ok (mk_image (kmax - kmin) part)).
(** FileUtils.cxx 576-592. *)
Definition append_wcs (npix ndata : nat) (data : list T) (kmin kmax : nat) : outcome image :=
  replace_wcs (mk_image (kmax - kmin) (repeat zero ((kmax - kmin) * npix))) npix ndata data kmin kmax.
(** FileUtils.cxx 77-89. *)
Definition read_image (im : image) : list T * nat := (i_data im, i_planes im).

(** ** Sparse maps *)
(** A row has a pixel, a channel and a value; [None]: it cannot be read. *)
Record stable := mk_stable { s_nenergy : nat; s_rows : list (option (nat * nat * T)) }.
(** FileUtils.cxx 463-546.  The keys of the range, 495-499, are not used.  The table keeps its rows beyond those written.
    Fewer than 32768 channels.  [ndata]: the number of energies of the counts map. *)
Definition replace_sparse (t : stable) (npix ndata : nat) (v : sv T) (kmin kmax : nat) : outcome stable :=
  if npix =? 0 then (match sv_data v with [] => Ok (mk_stable (kmax - kmin) (s_rows t)) | _ => UB end) else
  if existsb (fun p => ndata <=? fst p / npix) (sv_data v) then Throw else
  let rows := map (fun p => Some (fst p mod npix, fst p / npix, snd p)) (sv_data v) in
  Ok (mk_stable (kmax - kmin) (rows ++ skipn (length rows) (s_rows t))).
(** FileUtils.cxx 605-617. *)
Definition append_sparse (npix ndata : nat) (v : sv T) (kmin kmax : nat) : outcome stable :=
  replace_sparse (mk_stable 0 []) npix ndata v kmin kmax.
(** FileUtils.cxx 155-180: rows that cannot be read become pixel 0 with value zero; the eleventh is an exception. *)
Fixpoint sparse_rows (npix nfail : nat) (rows : list (option (nat * nat * T))) : outcome (list (nat * T)) :=
  match rows with
  | [] => Ok []
  | Some (pix, chan, x) :: l => obind (sparse_rows npix nfail l) (fun r => Ok ((chan * npix + pix, x) :: r))
  | None :: l => if nfail <? 10 then obind (sparse_rows npix (S nfail) l) (fun r => Ok ((0, zero) :: r)) else Throw
  end.
(** FileUtils.cxx 129-187 and SparseVector.h 356-369. *)
Definition read_sparse (t : stable) (npix : nat) (v : sv T) : outcome (sv T * nat) :=
  obind (sparse_rows npix 0 (s_rows t)) (fun r => Ok (mk_sv (sv_size v) (sv_null v) r, s_nenergy t)).
End Dense.

(** ** Energies *)
(** FileUtils.cxx 58-75: E_MIN and E_MAX of the rows, in keV.  Without a row the last energy is not initialised. *)
Definition read_ebounds (rows : list (R * R)) : outcome (list R) :=
  match rows with
  | [] => UB
  | _ => Ok (map (fun r => (fst r / 1000)%R) rows ++ [(snd (last rows (0%R, 0%R)) / 1000)%R])
  end.

(** ** Response matrices *)
(** FileUtils.cxx 787-841, [full]: the energies with those added for the dispersion (FitUtils::expand_energies, external). *)
Definition write_drm (d : drm) (full : list R) : outcome (list (R * R * list R)) :=
  mfold (fun l i => obind (vec_get full i) (fun lo => obind (vec_get full (i + 1)) (fun hi => obind (vec_get (dr_mat d) i) (fun row => Ok (l ++ [(lo, hi, row)]))))) (seq 0 (dr_ntrue d)) [].
(** FileUtils.cxx 843-884 and Drm.cxx 78-111: the edges of the second to the last row, no energies added.  The sizes of the
    vectors of the ratios are checked like their accesses: at least two energies. *)
Definition read_drm (rows : list (R * R * list R)) : outcome (drm * list (list R)) :=
  match rows with
  | [] => Throw
  | _ :: l =>
    let d := mk_drm (map (fun r => fst (fst r)) l) 0 (map snd rows) in
    if length (dr_en d) <? 2 then UB else obind (compute_transpose d) (fun t => Ok (d, t))
  end.

(** ** Parameters *)
Record par := mk_par { pa_value : R; pa_scale : R; pa_error : R; pa_free : bool; pa_lo : R; pa_hi : R }.
(** The spectra of the sources: for each source the name of the function and its parameters. *)
Definition model := list (string * (string * list (string * par))).
Fixpoint assoc {A} (l : list (string * A)) (s : string) : option A :=
  match l with [] => None | (t, a) :: l' => if String.eqb t s then Some a else assoc l' s end.
Fixpoint set_assoc {A} (l : list (string * A)) (s : string) (f : A -> A) : list (string * A) :=
  match l with [] => [] | (t, a) :: l' => if String.eqb t s then (t, f a) :: l' else (t, a) :: set_assoc l' s f end.
(** SourceModel.cxx 354-364. *)
Definition getParam (m : model) (paramName funcName srcName : string) : outcome par :=
  match assoc m srcName with
  | Some (_, ps) => if String.eqb funcName "Spectrum" then match assoc ps paramName with Some p => Ok p | None => Throw end else Throw
  | None => Throw
  end.
(** SourceModel.cxx 321-334: the parameter is found by its own name, [pname]. *)
Definition setParam (m : model) (pname : string) (p : par) (funcName srcName : string) : outcome model :=
  match assoc m srcName with
  | Some (_, ps) =>
    if String.eqb funcName "Spectrum" then
      match assoc ps pname with Some _ => Ok (set_assoc m srcName (fun fp => (fst fp, set_assoc (snd fp) pname (fun _ => p)))) | None => Throw end
    else Throw
  | None => Throw
  end.
Record prow := mk_prow { r_src : string; r_func : string; r_par : string; r_value : R; r_scale : R; r_error : R; r_free : bool }.
(** A column of format 32A. *)
Definition fit32 (s : string) : string := substring 0 32 s.
(** FileUtils.cxx 637-728, of the spectra. *)
Definition write_params (m : model) : list prow :=
  concat (map (fun s => map (fun p => mk_prow (fit32 (fst s)) (fit32 (fst (snd s))) (fit32 (fst p)) (pa_value (snd p)) (pa_scale (snd p)) (pa_error (snd p)) (pa_free (snd p))) (snd (snd s))) m).
(** FileUtils.cxx 745-784; setValue raises an exception outside the bounds.  The arguments of getParam are in the order of the
    call. *)
Definition read_row (m : model) (r : prow) : outcome model :=
  obind (getParam m (r_src r) (r_func r) (r_par r)) (fun p =>
  if Rltb (r_value r) (pa_lo p) || Rltb (pa_hi p) (r_value r) then Throw else
  setParam m (r_src r) (mk_par (r_value r) (r_scale r) (r_error r) (r_free r) (pa_lo p) (pa_hi p)) (r_func r) (r_src r)).
Definition read_params (rows : list prow) (m : model) : outcome model := mfold read_row rows m.

(** ** Weights maps *)
(** CountsMapHealpix.cxx 215-234: the objects that are made and deleted; deleting one twice is undefined. *)
Inductive heap_op := New (i : nat) | Delete (i : nat).
Definition heap_step (alive : list nat) (o : heap_op) : outcome (list nat) :=
  match o with
  | New i => Ok (i :: alive)
  | Delete i => if existsb (Nat.eqb i) alive then Ok (filter (fun j => negb (i =? j)) alive) else UB
  end.
Definition writeAsWeightsMap : outcome (list nat) := mfold heap_step [New 0; Delete 0; New 1; Delete 1; Delete 0] [].

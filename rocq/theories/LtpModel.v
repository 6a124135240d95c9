(** Model of gtltsum (src/gtaddlivetime/gtaddlivetime.cxx:79-239), of gtsrcprob (src/gtsrcprob/gtsrcprob.cxx:115-240)
    and of the event types of events and the response functions loaded for them (src/EventContainer.cxx:49-69, 125-137,
    Likelihood/EventContainer.h:51-52, src/ResponseFunctions.cxx:98-147). *)
From Coq Require Import Reals List Bool Arith NArith String.
From Verif Require Import Base AccumModel EvtModel CutModel.
Import ListNotations.
Local Open Scope string_scope.
Local Open Scope list_scope.
Local Open Scope nat_scope.

(** ** gtltsum *)
(** An EXPOSURE or WEIGHTED_EXPOSURE extension: column COSBINS, keywords TSTART, TSTOP, ZENMAX ([None]: not there).  The
    good time intervals, merged by an external library, and the dates are left out. *)
Record lt_table := mk_lt { lt_rows : list (list R); lt_start : R; lt_stop : R; lt_zen : option R }.
(** A livetime cube; [lf_bounds] is the extension CTHETABOUNDS. *)
Record lt_file := mk_lf { lf_bounds : list (R * R); lf_exp : lt_table; lf_wexp : lt_table }.

(** gtaddlivetime.cxx:101-116. *)
Definition get_bounds (f : lt_file) : list R := fold_left (fun l b => l ++ [fst b; snd b]) (lf_bounds f) [].
(** gtaddlivetime.cxx:124-131. *)
Definition bounds_agree (master l : list R) : outcome unit :=
  if negb (length l =? length master) then Throw
  else mfold (fun _ j => obind (vec_get l j) (fun x => obind (vec_get master j) (fun y => if Reqb x y then Ok tt else Throw))) (seq 0 (length master)) tt.
(** gtaddlivetime.cxx:118-133; front() of no files is undefined. *)
Definition check_costheta_bounds (fs : list lt_file) : outcome unit :=
  match fs with
  | [] => UB
  | f0 :: l => mfold (fun _ f => bounds_agree (get_bounds f0) (get_bounds f)) l tt
  end.
(** gtaddlivetime.cxx:135-145. *)
Definition zenmax (t : lt_table) : R := match lt_zen t with Some z => z | None => 180%R end.
(** gtaddlivetime.cxx:201-203: the loop over j. *)
Definition add_cells (r my : list R) : outcome (list R) :=
  mfold (fun r j => obind (vec_at r j) (fun x => obind (vec_at my j) (fun y => Ok (upd r j (x + y)%R)))) (seq 0 (length my)) r.
(** gtaddlivetime.cxx:188-204: the loop over the records. *)
Definition add_rows (rows mine : list (list R)) : outcome (list (list R)) :=
  mfold (fun rows i => obind (vec_at rows i) (fun r => obind (vec_at mine i) (fun my =>
    if negb (length r =? length my) then Throw else obind (add_cells r my) (fun r' => Ok (upd rows i r')))))
    (seq 0 (length mine)) rows.
(** gtaddlivetime.cxx:170-217: one further file. *)
Definition add_table (zen0 : R) (s : list (list R) * R * R) (t : lt_table) : outcome (list (list R) * R * R) :=
  let '(rows, a, b) := s in
  if negb (Reqb (zenmax t) zen0) then Throw
  else if negb (length rows =? length (lt_rows t)) then Throw
  else obind (add_rows rows (lt_rows t)) (fun rows' =>
    Ok (rows', if Rltb (lt_start t) a then lt_start t else a, if Rltb b (lt_stop t) then lt_stop t else b)).
(** gtaddlivetime.cxx:147-217. *)
Definition sum_tables (ts : list lt_table) : outcome (list (list R) * R * R) :=
  match ts with
  | [] => UB
  | t0 :: l => mfold (add_table (zenmax t0)) l (lt_rows t0, lt_start t0, lt_stop t0)
  end.
(** gtaddlivetime.cxx:219-232: the table of the output, a copy of the first file's, is changed. *)
Definition write_table (t : lt_table) (s : list (list R) * R * R) : lt_table :=
  let '(rows, a, b) := s in mk_lt rows a b (lt_zen t).
(** gtaddlivetime.cxx:79-86: the output file ([None]: does not exist) before and after, and how it ended.  fcopy throws if
    the file exists and clobber is no. *)
Definition gtltsum (clobber : bool) (fs : list lt_file) (old : option lt_file) : option lt_file * outcome unit :=
  match check_costheta_bounds fs with
  | Throw => (old, Throw)
  | UB => (old, UB)
  | Ok _ =>
    match old, clobber with
    | Some _, false => (old, Throw)
    | _, _ =>
      match fs with
      | [] => (old, UB)
      | f0 :: _ =>
        match sum_tables (map lf_exp fs) with
        | Throw => (Some f0, Throw)
        | UB => (Some f0, UB)
        | Ok s =>
          let f1 := mk_lf (lf_bounds f0) (write_table (lf_exp f0) s) (lf_wexp f0) in
          match sum_tables (map lf_wexp fs) with
          | Throw => (Some f1, Throw)
          | UB => (Some f1, UB)
          | Ok s2 => (Some (mk_lf (lf_bounds f0) (lf_exp f1) (write_table (lf_wexp f0) s2)), Ok tt)
          end
        end
      end
    end
  end.

(** ** gtsrcprob *)
Section Prob.
(** An event of the file as the responses see it. *)
Variable E : Type.
(** If the region of interest accepts it (EventContainer.cxx:152, apply_roi_cut is true by default). *)
Variable accept : E -> bool.
(** The sources of the model in the order of getSrcNames, with fluxDensity of an event. *)
Variable model : list (string * (E -> R)).
(** A row of the event table: columns by their names in lower case (as tip keeps them), and the event. *)
Definition evrow : Type := list (string * R) * E.

(** gtsrcprob.cxx:162-165. *)
Definition read_events (rows : list evrow) : list E := filter accept (map snd rows).
(** gtsrcprob.cxx:167-177: [None] is the list "" or "none". *)
Definition source_list (l : option (list string)) : list string := match l with None => map fst model | Some l => l end.
(** gtsrcprob.cxx:192-211: the new columns; appending a column that is already there makes tip throw. *)
Definition append_columns (columns : list string) (srclist : list string) : outcome (list string) :=
  mfold (fun added n =>
    let c := toLower n in
    if existsb (String.eqb c) columns then Ok added
    else if existsb (String.eqb c) added then Throw else Ok (added ++ [c])) srclist [].
(** row[name].set(x): tip throws if there is no such column. *)
Definition row_set (r : list (string * R)) (n : string) (x : R) : outcome (list (string * R)) :=
  let c := toLower n in
  if existsb (fun p => String.eqb (fst p) c) r then Ok (map (fun p => if String.eqb (fst p) c then (c, x) else p) r) else Throw.
(** std::map::operator[] after the loop of 227-232: 0 for a name that is not there. *)
Definition density (ds : list (string * R)) (n : string) : R :=
  match find (fun p => String.eqb (fst p) n) ds with Some p => snd p | None => 0%R end.
(** gtsrcprob.cxx:223-238: one row.  The loop's densities are those of the model's names, which are different; a division
    by 0 (a NaN or an infinity in the file) is UB. *)
Definition write_row (srclist : list string) (events : list E) (jr : nat * list (string * R)) : outcome (list (string * R)) :=
  obind (match model with [] => Ok [] | _ => obind (vec_at events (fst jr)) (fun e => Ok (map (fun s => (fst s, snd s e)) model)) end) (fun ds =>
  let norm := fold_left (fun t p => (t + snd p)%R) ds 0%R in
  mfold (fun r n => if Reqb norm 0%R then UB else row_set r n (density ds n / norm)%R) srclist (snd jr)).
(** gtsrcprob.cxx:179-240: [columns] are the columns of the event table, all in lower case; new columns are filled with 0. *)
Definition gtsrcprob (columns : list string) (list_file : option (list string)) (rows : list evrow) : outcome (list (list (string * R))) :=
  let srclist := source_list list_file in
  obind (append_columns columns srclist) (fun added =>
  mfold (fun out jr => obind (write_row srclist (read_events rows) jr) (fun r => Ok (out ++ [r])))
    (combine (seq 0 (length rows)) (map (fun r => fst r ++ map (fun c => (c, 0%R)) added) rows)) []).
End Prob.

(** ** Event types *)
(** EventContainer.cxx:129-133: the integer part of log(bits & mask)/log(2), exactly; log(0) converted to an integer is
    undefined. *)
Definition event_type (bits mask : N) : outcome nat :=
  let b := N.land bits mask in if N.eqb b 0 then UB else Ok (N.to_nat (N.log2 b)).
(** ResponseFunctions.cxx:108-147: the identifiers of the loaded response functions; [available] are those of the name asked
    for ([None]: no such name). *)
Definition load_irfs (available : option (list nat)) (types : list nat) : outcome (list nat) :=
  match available with
  | None => Throw
  | Some ids =>
    let l := filter (fun i => match types with [] => true | _ => existsb (Nat.eqb i) types end) ids in
    match l with [] => Throw | _ => Ok l end
  end.
(** EventContainer.cxx:129-139, ResponseFunctions.cxx:98-106: the response functions of an event; those not loaded are a null
    pointer that is dereferenced. *)
Definition event_irfs (loaded : list nat) (mask bits : N) : outcome nat :=
  obind (event_type bits mask) (fun t => if existsb (Nat.eqb t) loaded then Ok t else UB).
(** EventContainer.cxx:61-69: the mask of the last EVENT_TYPE selection of the event file; EventContainer.h:51-52: 3 (front and
    back) without. *)
Definition event_mask (file_cuts : list cut) : N :=
  fold_left (fun m c => match c with BitMask col k => if String.eqb col "EVENT_TYPE" then k else m | _ => m end) file_cuts 3%N.
(** The response functions of an event of a file: AppHelpers.cxx:539-547 for the cuts [response] (AppHelpers.h:220: default 3),
    EventContainer.cxx:61-69 and 125-137 for the cuts of the file. *)
Definition file_event_irfs (available : option (list nat)) (response file_cuts : list cut) (bits : N) : outcome nat :=
  obind (load_irfs available (getSelectedEvtTypes response 3)) (fun loaded => event_irfs loaded (event_mask file_cuts) bits).

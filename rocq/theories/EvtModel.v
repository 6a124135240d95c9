(** Model of EventContainer::nobs (src/EventContainer.cxx:239-265), of DiffRespNames
    (src/DiffRespNames.cxx), and of the diffuse responses of events: how gtdiffrsp writes them to
    event files (src/diffuseResponses/diffuseResponses.cxx:170-206, 317-366, 443-511, 555-568), how
    they are read back (src/EventContainer.cxx:95-112, 151-180, 294-308) and looked up
    (src/Event.cxx:39-46, 104-138, 156-229, 438-465). *)
From Coq Require Import Reals String Ascii Decimal DecimalString.
From Verif Require Import Base AccumModel.
Local Open Scope nat_scope.

(** ** nobs *)
(** Energy of an event, flux density times efficiency of a source (a number), model sum. *)
Record nevent := mk_nev { ne_energy : R; ne_flux : Z -> R; ne_sum : R }.
(** std::upper_bound as in libstdc++: bisection on the length that is left; [fuel] is at least that length. *)
Fixpoint upper_bound_loop (fuel : nat) (v : list R) (x : R) (first len : nat) : outcome nat :=
  match fuel with
  | 0 => Ok first
  | S fuel' =>
      if len =? 0 then Ok first
      else let half := Nat.div2 len in
           obind (vec_get v (first + half)) (fun m =>
           if Rltb x m then upper_bound_loop fuel' v x first half
           else upper_bound_loop fuel' v x (first + half + 1) (len - half - 1))
  end.
Definition std_upper_bound (v : list R) (x : R) : outcome nat := upper_bound_loop (length v) v x 0 (length v).
(** front(), back(): undefined on an empty vector. *)
Definition front (v : list R) : outcome R := vec_get v 0.
Definition back (v : list R) : outcome R := match v with [] => UB | _ => vec_get v (length v - 1) end.
(** A size_t difference: None when it wraps around, which makes at() throw. *)
Definition minus1 (n : nat) : option nat := match n with 0 => None | S m => Some m end.
(** Lines 243-262 for one event. *)
Definition nobs_event (eb : list R) (src : option Z) (acc : list R) (e : nevent) : outcome (list R) :=
  obind (front eb) (fun f => obind (back eb) (fun b =>
  if Rltb (ne_energy e) f || Rltb b (ne_energy e) then Ok acc else
  obind (std_upper_bound eb (ne_energy e)) (fun u =>
  let k := minus1 u in
  let k := if Reqb (ne_energy e) f then Some 0 else k in
  let k := if Reqb (ne_energy e) b then minus1 (length acc) else k in
  match k with
  | None => Throw
  | Some k => obind (vec_at acc k) (fun x =>
      Ok (upd acc k (x + match src with Some s => ne_flux e s / ne_sum e | None => 1 end)%R))
  end))).
(** Lines 239-265; a vector of size()-1 = 2^64-1 elements throws. *)
Definition nobs (eb : list R) (src : option Z) (evs : list nevent) : outcome (list R) :=
  match eb with [] => Throw | _ => mfold (nobs_event eb src) evs (repeat 0%R (length eb - 1)) end.

(** ** DiffRespNames *)
Local Open Scope string_scope.
Record drn := mk_drn { dr_root : string; dr_cols : list string }.
(** What operator<< writes for a size_t. *)
Definition decimal (n : nat) : string := NilEmpty.string_of_uint (Nat.to_uint n).
(** atoi (facilities::Util::atoi is taken to be that): white space, a sign, digits, the rest is
    ignored; no digits give 0, and a result outside of int is undefined. *)
Definition digit (c : ascii) : option Z :=
  let n := nat_of_ascii c in if (48 <=? n)%nat && (n <=? 57)%nat then Some (Z.of_nat n - 48)%Z else None.
Fixpoint atoi_digits (acc : Z) (s : string) : Z :=
  match s with
  | EmptyString => acc
  | String c s' => match digit c with Some d => atoi_digits (10 * acc + d) s' | None => acc end
  end.
Definition is_space (c : ascii) : bool := let n := nat_of_ascii c in (n =? 32)%nat || ((9 <=? n)%nat && (n <=? 13)%nat).
Fixpoint skip_spaces (s : string) : string :=
  match s with String c s' => if is_space c then skip_spaces s' else s | EmptyString => s end.
Definition atoi (s : string) : outcome Z :=
  let z := match skip_spaces s with
           | String "-"%char s' => (- atoi_digits 0 s')%Z
           | String "+"%char s' => atoi_digits 0 s'
           | s' => atoi_digits 0 s'
           end in
  if (- 2 ^ 31 <=? z)%Z && (z <? 2 ^ 31)%Z then Ok z else UB.
(** Lines 33-35. *)
Definition dr_at (d : drn) (i : nat) : outcome string := vec_at (dr_cols d) i.
(** Lines 37-44; a negative number becomes a huge index, which throws. *)
Definition substr (s : string) (pos len : nat) : string := substring pos len s.
Definition dr_key_at (d : drn) (key : string) : outcome string :=
  if negb (String.eqb (substr key 0 (String.length (dr_root d))) (dr_root d)) then Throw
  else obind (atoi (substr key (String.length (dr_root d)) (String.length key))) (fun z =>
       if (z <? 0)%Z then Throw else vec_at (dr_cols d) (Z.to_nat z)).
(** Lines 46-50. *)
Definition addColumn (d : drn) (c : string) : drn :=
  if existsb (String.eqb c) (dr_cols d) then d else mk_drn (dr_root d) (dr_cols d ++ [c]).
Fixpoint index_of (c : string) (l : list string) : option nat :=
  match l with [] => None | x :: l' => if String.eqb c x then Some 0 else option_map S (index_of c l') end.
(** Lines 52-63. *)
Definition dr_key (d : drn) (c : string) : outcome string :=
  match index_of c (dr_cols d) with None => Throw | Some i => Ok (dr_root d ++ decimal i) end.

(** ** Names of diffuse components *)
(** Event.cxx:449-453, in the C locale. *)
Definition lower_char (c : ascii) : ascii :=
  let n := nat_of_ascii c in if (65 <=? n)%nat && (n <=? 90)%nat then ascii_of_nat (n + 32) else c.
Fixpoint toLower (s : string) : string := match s with EmptyString => s | String c s' => String (lower_char c) (toLower s') end.
(** Event.cxx:39-46, diffuseResponses.cxx:52-59: everything before the first "::". *)
Definition strip (s : string) : string := match index 0 "::" s with Some p => substring 0 p s | None => s end.
(** Event.cxx:455-465 (which also keeps what it computed), diffuseResponses.cxx:359-366. *)
Definition diffuseSrcName (irf src : string) : string := toLower (strip irf ++ "__" ++ src).
(** diffuseResponses.cxx:60-66. *)
Definition altName (irf src : string) : string := toLower (strip irf ++ "::" ++ src).
(** EventContainer.cxx:310-322. *)
Definition sourceName (name : string) : string :=
  match index 0 "__" name with
  | Some p => substring (p + 2) (String.length name) name
  | None => match index 0 "::" name with Some p => substring (p + 2) (String.length name) name | None => name end
  end.

(** ** Tables keyed by strings *)
Fixpoint tfind {A} (k : string) (t : list (string * A)) : option A :=
  match t with [] => None | (k', a) :: t' => if String.eqb k k' then Some a else tfind k t' end.
Fixpoint tset {A} (k : string) (a : A) (t : list (string * A)) : list (string * A) :=
  match t with [] => [(k, a)] | (k', a') :: t' => if String.eqb k k' then (k, a) :: t' else (k', a') :: tset k a t' end.

(** ** Diffuse responses of an event: m_respDiffuseSrcs *)
Definition eresp := list (string * list R).
(** Event.h:116-119. *)
Definition setDiffuseResponse (e : eresp) (name : string) (v : R) : eresp := tset name [v] e.
(** Event.cxx:104-138, without energy dispersion. *)
Definition diffuseResponse (irf : string) (e : eresp) (src : string) : outcome R :=
  match tfind (diffuseSrcName irf src) e with None => Throw | Some v => vec_get v 0 end.
(** Event.cxx:156-229 with 438-447: [resp] is what is computed (0 for an event of another class). *)
Definition computeResponseGQ (irf : string) (e : eresp) (srcs : list string) (resp : string -> R) : eresp :=
  let new := filter (fun s => match tfind (diffuseSrcName irf s) e with None => true | Some _ => false end) srcs in
  fold_left (fun e s => let n := diffuseSrcName irf s in
             tset n (match tfind n e with None => [] | Some v => v end ++ [resp s])%list e) new e.

(** ** Event files *)
(** The values of the keywords DIFRSP0, DIFRSP1, ... (NDIFRSP is their number), the columns with one
    value per row, the number of rows. *)
Record ft1 := mk_ft1 { f_hdr : list string; f_cols : list (string * list R); f_rows : nat }.
(** EventContainer.cxx:294-308. *)
Definition read_names (f : ft1) : drn := fold_left addColumn (f_hdr f) (mk_drn "DIFRSP" []).
(** EventContainer.cxx:151-180, for one row; a column that is not there makes tip throw. *)
Definition read_row (f : ft1) (r : nat) : outcome eresp :=
  mfold (fun e name =>
    obind (dr_key (read_names f) name) (fun col =>
    match tfind col (f_cols f) with
    | None => Throw
    | Some c => obind (vec_get c r) (fun v => Ok (setDiffuseResponse e name v))
    end)) (dr_cols (read_names f)) [].
(** EventContainer.cxx:114-183. *)
Definition read_events (f : ft1) : outcome (list eresp) :=
  mfold (fun l r => obind (read_row f r) (fun e => Ok (l ++ [e])%list)) (seq 0 (f_rows f)) [].

(** diffuseResponses.cxx:317-357: sources of the model are given by their names. *)
Definition haveDiffuseColumns (irf : string) (srcs : list string) (f : ft1) : bool :=
  forallb (fun s => existsb (String.eqb (diffuseSrcName irf s)) (f_hdr f) || existsb (String.eqb (altName irf s)) (f_hdr f)) srcs.
(** diffuseResponses.cxx:555-568. *)
Definition readExisting (d : drn) (f : ft1) : drn :=
  fold_left (fun d c => if String.eqb c "NONE" then d else addColumn d c) (f_hdr f) d.
(** Lines 458-484: appendField throws when the column exists, which is caught. *)
Definition append_columns (irf : string) (srcs : list string) (d : drn) (f : ft1) : outcome (drn * list (string * list R)) :=
  mfold (fun dc s =>
    let d := addColumn (fst dc) (diffuseSrcName irf s) in
    obind (dr_key d (diffuseSrcName irf s)) (fun field =>
    Ok (d, match tfind field (snd dc) with Some _ => snd dc | None => (snd dc ++ [(field, repeat 0%R (f_rows f))])%list end))) srcs (d, f_cols f).
(** Lines 485-499. *)
Definition write_row (irf : string) (srcs : list string) (d : drn) (cols : list (string * list R)) (re : nat * eresp) : outcome (list (string * list R)) :=
  mfold (fun cols s =>
    obind (dr_key d (diffuseSrcName irf s)) (fun field =>
    obind (diffuseResponse irf (snd re) s) (fun v =>
    match tfind field cols with
    | None => Throw
    | Some c => obind (vec_set c (fst re) v) (fun c => Ok (tset field c cols))
    end))) srcs cols.
(** Lines 443-511 for events [es]; [nd] is m_ndifrsp. *)
Definition writeEventResponses (irf : string) (srcs : list string) (d : drn) (nd : nat) (f : ft1) (es : list eresp) : outcome (drn * ft1) :=
  if (length srcs =? 0)%nat then Ok (d, f) else
  let d := readExisting d f in
  obind (append_columns irf srcs d f) (fun dc =>
  let d := fst dc in
  obind (mfold (write_row irf srcs d) (combine (seq 0 (f_rows f)) es) (snd dc)) (fun cols =>
  let n := length (dr_cols d) in
  let nkeys := if (nd <? n)%nat then n else length (f_hdr f) in
  Ok (d, mk_ft1 (firstn nkeys (dr_cols d ++ skipn n (f_hdr f)))%list cols (f_rows f)))).
(** Lines 170-206 for one file; m_ndifrsp is set by haveDiffuseColumns, which is not called with clobber. *)
Definition process (irf : string) (srcs : list string) (clobber : bool) (resp : nat -> string -> R) (d : drn) (f : ft1) : outcome (drn * ft1) :=
  if negb clobber && haveDiffuseColumns irf srcs f then Ok (d, f) else
  obind (read_events f) (fun es =>
  let es := map (fun re => computeResponseGQ irf (snd re) srcs (resp (fst re))) (combine (seq 0 (f_rows f)) es) in
  writeEventResponses irf srcs d (if clobber then 0 else length (f_hdr f)) f es).
(** All the files: the object keeps m_columnNames from one to the next. *)
Fixpoint gtdiffrsp (irf : string) (srcs : list string) (clobber : bool) (d : drn) (fs : list (ft1 * (nat -> string -> R))) : outcome (list ft1) :=
  match fs with
  | [] => Ok []
  | (f, resp) :: fs' =>
      obind (process irf srcs clobber resp d f) (fun df =>
      obind (gtdiffrsp irf srcs clobber (fst df) fs') (fun out => Ok (snd df :: out)))
  end.
(** What a likelihood reads: the response of a source in a row. *)
Definition read_response (irf : string) (f : ft1) (r : nat) (src : string) : outcome R :=
  obind (read_row f r) (fun e => diffuseResponse irf e src).

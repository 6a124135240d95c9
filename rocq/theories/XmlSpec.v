(** What it means to store a source model in a file, in words independent of the code. *)
From Verif Require Import Base XmlText XmlModel.
From Coq Require Import String Ascii Reals Sorted DecimalString.
Local Open Scope nat_scope.
Local Open Scope string_scope.
Local Open Scope list_scope.

(** ** Text *)
Fixpoint all_chars (P : ascii -> bool) (s : string) : bool :=
  match s with String c s => P c && all_chars P s | EmptyString => true end.

(** An element or attribute name: letters and underscores, not empty. *)
Definition name_char (c : ascii) : bool :=
  let n := nat_of_ascii c in
  (((65 <=? n) && (n <=? 90)) || ((97 <=? n) && (n <=? 122)) || (n =? 95))%nat.
Definition name_ok (s : string) : Prop := s <> "" /\ all_chars name_char s = true.
(** Text without double quotes and ampersands. *)
Definition text_char (c : ascii) : bool := negb (c =? "034")%char && negb (c =? "&")%char.
Definition text_ok (s : string) : Prop := all_chars text_char s = true.

Fixpoint plain (n : node) : Prop :=
  let 'Node t a k := n in
  name_ok t /\ List.Forall (fun x => name_ok (fst x) /\ text_ok (snd x)) a /\
  (fix all (l : list node) : Prop := match l with [] => True | n :: l => plain n /\ all l end) k.

(** ** Numbers: [wr] writes one, [rd] reads it back as [rnd] of it (the nearest number of
    15 digits), and rounding keeps the order. *)
Record decimals (wr : R -> string) (rd : string -> option R) (rnd : R -> R) : Prop := {
  d_back : forall x, rd (wr x) = Some (rnd x);
  d_text : forall x, text_ok (wr x) /\ wr x <> "";
  d_mono : forall x y, (x <= y)%R -> (rnd x <= rnd y)%R }.

(** ** What a file holds of a parameter, a function, a source *)
Definition stored_param (rnd : R -> R) (p : param) : param :=
  mk_param (p_name p) (rnd (p_value p)) (rnd (p_scale p)) (rnd (p_min p)) (rnd (p_max p)) (p_free p).
(** Functions with a list of energies (MultipleBPL, PiecewisePowerLaw) keep the true values of their
    energy parameters beside the parameters. *)
Definition list_functions : list string := ["MultipleBPL"; "PiecewisePowerLaw"].
Definition has_list (t : string) : bool := existsb (String.eqb t) list_functions.
Definition is_knot (p : param) : bool := prefix "Break" (p_name p) || prefix "Energy" (p_name p).
Definition true_knots (f : func) : list R :=
  map (fun p => p_value p * p_scale p)%R (filter is_knot (f_params f)).
Definition stored_func (rnd : R -> R) (f : func) : func :=
  let ps := map (stored_param rnd) (f_params f) in
  let g := mk_func (f_type f) ps (f_file f) (f_scaling f) (f_knots f) in
  if has_list (f_type f) then mk_func (f_type f) ps (f_file f) (f_scaling f) (true_knots g) else g.

(** Everything but the [apply_*] flags: after reading they are all on.  [require]: the
    caller asks for exposures. *)
Fixpoint stored (rnd : R -> R) (require : bool) (s : source) : source :=
  match s with
  | Point n f _ ra dec => Point n (stored_func rnd f) (mk_flags true true true true) (rnd ra) (rnd dec)
  | Diffuse n f _ sp mb => Diffuse n (stored_func rnd f) (mk_flags true true true require) (stored_func rnd sp) mb
  | Composite n f _ l => Composite n (stored_func rnd f) (mk_flags true true true false) (map (stored rnd require) l)
  end.

(** ** Models that the file format can express *)
Definition in_bounds (p : param) : Prop := (p_min p <= p_value p <= p_max p)%R.
Definition param_ok (p : param) : Prop := in_bounds p /\ text_ok (p_name p).

(** The text of the file is free of quotes and ampersands, and the values lie in their bounds. *)
Definition func_text (f : func) : Prop :=
  text_ok (f_type f) /\ text_ok (f_file f) /\ text_ok (f_scaling f) /\ List.Forall param_ok (f_params f).

(** The function is an instance of the prototype registered under its generic name:
    the same parameters in the same order. *)
Definition instance_of (proto f : func) : Prop :=
  f_type proto = f_type f /\ map p_name (f_params proto) = map p_name (f_params f) /\ f_knots proto = f_knots f.

(** "Index0", "Index1", ... *)
Definition numbered (base : string) (n : nat) : list string :=
  map (fun k => base +++ NilZero.string_of_uint (Nat.to_uint k)) (seq 0 n).
Fixpoint ascending (l : list R) : Prop :=
  match l with x :: (y :: _) as l' => (x < y)%R /\ ascending l' | _ => True end.

(** A function with a list of energies: its prototype has no parameters; the parameters are numbered;
    the energies as stored still increase. *)
Definition list_instance (rnd : R -> R) (proto f : func) : Prop :=
  f_type proto = f_type f /\ f_params proto = [] /\ ascending (true_knots (stored_func rnd f)) /\
  exists n, map p_name (f_params f) =
    if f_type f =? "MultipleBPL" then "Normalization" :: numbered "Index" (S n) ++ numbered "Break" n
    else "IndexL" :: "IndexH" :: numbered "dNdE" n ++ numbered "Energy" n.

Definition spectrum_files : list string := ["DMFitFunction"; "FileFunction"; "ScaleFactor::FileFunction"].
Definition map_files : list string := ["SpatialMap"; "MapCubeFunction"].
Definition spatial_files : list string := "RadialProfile" :: map_files.

(** What the factory and the files must offer for a function to be read. *)
Definition available (create : string -> option func) (readable : string -> bool) (files : list string)
    (good : func -> func -> Prop) (f : func) : Prop :=
  NoDup (map p_name (f_params f)) /\
  exists proto, create (f_type f) = Some proto /\ good proto f /\ f_scaling proto = "" /\
    (In (f_type f) files -> readable (f_file f) = true) /\
    (~ In (f_type f) files -> f_file proto = f_file f).

Definition spectrum_ok (rnd : R -> R) (create : string -> option func) (readable : string -> bool) (f : func) : Prop :=
  func_text f /\
  available create readable spectrum_files
    (fun proto f => if has_list (f_type f) then list_instance rnd proto f else instance_of proto f) f /\
  (f_scaling f <> "" -> readable (f_scaling f) = true).
Definition spatial_ok (create : string -> option func) (readable : string -> bool) (f : func) : Prop :=
  func_text f /\ available create readable spatial_files instance_of f /\
  f_scaling f = "" /\ ~ In (f_type f) list_functions.

Definition sorted_names (m : list source) : Prop :=
  StronglySorted (fun a b => String.ltb a b = true) (map s_name m).

Fixpoint writable (s : source) : Prop :=
  text_ok (s_name s) /\ func_text (s_spec s) /\
  match s with
  | Point _ _ _ _ _ => True
  | Diffuse _ _ _ sp _ => func_text sp
  | Composite _ _ _ l =>
      (fix all (l : list source) : Prop := match l with [] => True | s :: l => writable s /\ all l end) l
  end.

Fixpoint expressible (rnd : R -> R) (create : string -> option func) (readable : string -> bool) (s : source) : Prop :=
  text_ok (s_name s) /\ spectrum_ok rnd create readable (s_spec s) /\
  match s with
  | Point _ _ _ _ _ => True
  | Diffuse _ _ _ sp mb => spatial_ok create readable sp /\ (mb = true -> In (f_type sp) map_files)
  | Composite _ _ _ l =>
      sorted_names l /\
      (fix all (l : list source) : Prop :=
         match l with [] => True | s :: l => expressible rnd create readable s /\ all l end) l
  end.

(** ** Restoring parameters from a file *)
(** [s'], in memory, has the kind and the numbers of parameters of [s], in the file. *)
Definition restorable (s s' : source) : Prop :=
  List.length (f_params (s_spec s)) = List.length (f_params (s_spec s')) /\
  match s, s' with
  | Point _ _ _ _ _, Point _ _ _ _ _ => True
  | Diffuse _ _ _ d _, Diffuse _ _ _ d' _ => List.length (f_params d) = List.length (f_params d')
  | _, _ => False
  end.
Definition take_params (rnd : R -> R) (f f' : func) : func :=
  mk_func (f_type f') (map (stored_param rnd) (f_params f)) (f_file f') (f_scaling f') (f_knots f').
(** A position is taken over only if it lies farther than a ten-thousandth of a radian. *)
Definition restored (rnd : R -> R) (separation : R * R -> R * R -> R) (s s' : source) : source :=
  match s, s' with
  | Point _ f _ ra dec, Point n f' g ra' dec' =>
      if Rlt_dec (1 / 10000) (separation (rnd ra, rnd dec) (ra', dec'))
      then Point n (take_params rnd f f') g (rnd ra) (rnd dec)
      else Point n (take_params rnd f f') g ra' dec'
  | Diffuse _ f _ d _, Diffuse n f' g d' mb => Diffuse n (take_params rnd f f') g (take_params rnd d d') mb
  | _, _ => s'
  end.

(** ** Elements that yield a source *)
Definition value_of (n : node) (k : string) : string :=
  match find (fun a => fst a =? k) (n_attrs n) with Some a => snd a | None => "" end.
Definition yields (addPoint : bool) (n : node) : bool :=
  let t := value_of n "type" in
  (n_tag n =? "source") &&
  ((t =? "CompositeSource") || (t =? "DiffuseSource") || (addPoint && (t =? "PointSource"))).
Definition names_in (addPoint : bool) (library : node) : list string :=
  map (fun n => value_of n "name") (filter (yields addPoint) (n_kids library)).

(** ** The flux of a source: [n] trapezoids over energies that grow by a constant factor *)
Definition energy (emin emax : R) (n i : nat) : R := (emin * Rpower (emax / emin) (INR i / INR n))%R.
Fixpoint trapezoids (f e : nat -> R) (n : nat) : R :=
  match n with 0 => 0%R | S n => (trapezoids f e n + (e (S n) - e n) * ((f n + f (S n)) / 2))%R end.

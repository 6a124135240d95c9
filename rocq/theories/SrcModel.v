(** Model of the source container and its parameter vector: src/SourceModel.cxx
    197-412 and 670-677, src/CompositeSource.cxx 58-80 and 218-244.

    A source is an object with an identity, a name, the parameters of its spectrum and,
    for composites, the sources it owns.  Parameter values are integers (they are only
    copied and compared with the bounds).  optimizers::Parameter and
    optimizers::Function are not in /repo; what is assumed of them is stated at the
    definitions that use it.  setObservation, source maps and printing are not
    modelled. *)
From Verif Require Import Base SMap.
Local Open Scope Z_scope.

(** optimizers::Parameter: name, value, scale, bounds, free flag. *)
Record param := mk_par { q_name : Z; q_val : Z; q_scale : Z; q_lo : Z; q_hi : Z; q_free : bool }.
Definition with_val (p : param) (v : Z) : param := mk_par (q_name p) v (q_scale p) (q_lo p) (q_hi p) (q_free p).

Inductive source := mk_src (id : nat) (name : Z) (params : list param) (subs : option (list (Z * source))).
Definition s_id (s : source) := match s with mk_src i _ _ _ => i end.
Definition s_name (s : source) := match s with mk_src _ n _ _ => n end.
Definition s_params (s : source) := match s with mk_src _ _ p _ => p end.
Definition s_subs (s : source) := match s with mk_src _ _ _ l => l end.
Definition with_params (s : source) (p : list param) : source := mk_src (s_id s) (s_name s) p (s_subs s).

(** All objects owned through a source, itself included. *)
Fixpoint s_ids (s : source) : list nat :=
  match s with
  | mk_src i _ _ None => [i]
  | mk_src i _ _ (Some l) => i :: flat_map (fun p => match p with (_, s') => s_ids s' end) l
  end.
(** Source::clone: a deep copy; new identities are the old ones shifted by [k]. *)
Fixpoint s_clone (k : nat) (s : source) : source :=
  match s with
  | mk_src i n p None => mk_src (k + i) n p None
  | mk_src i n p (Some l) => mk_src (k + i) n p (Some (map (fun q => match q with (x, s') => (x, s_clone k s') end) l))
  end.

Record model := mk_model { m_src : smap source; m_par : list param; m_freeSrcs : list nat }.
Definition has_free (s : source) : bool := existsb q_free (s_params s).
(** SourceModel.cxx:402-412 and 670-677. *)
Definition syncParams (m : model) : model :=
  mk_model (m_src m) (flat_map (fun p => s_params (snd p)) (m_src m))
           (map (fun p => s_id (snd p)) (filter (fun p => has_free (snd p)) (m_src m))).
Definition empty_model : model := mk_model [] [] [].

(** Kinds of exception. *)
Inductive exn := EDuplicate | EUnknown | EBadLength | EOutOfBounds | EParNotFound | ENotComposite.
(** Outcome of a call together with the state it leaves. *)
Inductive result (S : Type) := Done (s : S) | Threw (e : exn) (s : S) | Undef.
Arguments Done {S}. Arguments Threw {S}. Arguments Undef {S}.

(** SourceModel.cxx:197-206; the clone, if any, is made by the caller of this definition. *)
Definition addSource (m : model) (s : source) : result model :=
  match mfind (s_name s) (m_src m) with
  | Some _ => Threw EDuplicate m
  | None => Done (syncParams (mk_model (minsert (s_name s) s (m_src m)) (m_par m) (m_freeSrcs m)))
  end.
(** SourceModel.cxx:208-218; the removed object is returned. *)
Definition deleteSource (m : model) (n : Z) : result model * option source :=
  match mfind n (m_src m) with
  | Some s => (Done (syncParams (mk_model (merase n (m_src m)) (m_par m) (m_freeSrcs m))), Some s)
  | None => (Threw EUnknown m, None)
  end.
(** SourceModel.cxx:220-228: delete every source and free it. *)
Fixpoint delete_names (m : model) (ns : list Z) (freed : list source) : result model * list source :=
  match ns with
  | [] => (Done m, freed)
  | n :: ns' => match deleteSource m n with
                | (Done m', Some s) => delete_names m' ns' (freed ++ [s])
                | (Done m', None) => (Undef, freed)
                | (r, _) => (r, freed)
                end
  end.
Definition deleteAllSources (m : model) : result model * list source :=
  match delete_names m (mkeys (m_src m)) [] with
  | (Done m', f) => (Done (mk_model (m_src m') [] (m_freeSrcs m')), f)
  | x => x
  end.

(** ** Parameter setters *)
(** optimizers::Function::setParamValues_ / setFreeParamValues_ of one spectrum: the next
    value goes to the next (free) parameter; optimizers::Parameter::setValue is assumed
    to throw OutOfBounds and change nothing when the value is outside the bounds.
    Reading past the end is undefined. *)
Fixpoint set_vals (sel : param -> bool) (ps : list param) (vs : list Z) : list param * option (result (list Z)) :=
  match ps with
  | [] => ([], None)
  | p :: ps' =>
      if sel p then
        match vs with
        | [] => (p :: ps', Some Undef)
        | v :: vs' =>
            if (q_lo p <=? v) && (v <=? q_hi p) then
              let (r, e) := set_vals sel ps' vs' in (with_val p v :: r, e)
            else (p :: ps', Some (Threw EOutOfBounds vs))
        end
      else let (r, e) := set_vals sel ps' vs in (p :: r, e)
  end.
Definition count_sel (sel : param -> bool) (ps : list param) : nat := length (filter sel ps).

(** The loops of SourceModel.cxx:336-352 over the sources. *)
Fixpoint set_all (sel : param -> bool) (srcs : smap source) (vs : list Z) : smap source * option (result (list Z)) :=
  match srcs with
  | [] => ([], None)
  | (n, s) :: rest =>
      let (ps, e) := set_vals sel (s_params s) vs in
      match e with
      | Some _ => ((n, with_params s ps) :: rest, e)
      | None => let (r, e') := set_all sel rest (skipn (count_sel sel (s_params s)) vs) in
                ((n, with_params s ps) :: r, e')
      end
  end.
(** SourceModel.cxx:336-352. *)
Definition setValues_ (sel : param -> bool) (m : model) (vs : list Z) : result model :=
  let (srcs, e) := set_all sel (m_src m) vs in
  match e with
  | None => Done (syncParams (mk_model srcs (m_par m) (m_freeSrcs m)))
  | Some (Threw x _) => Threw x (mk_model srcs (m_par m) (m_freeSrcs m))
  | Some _ => Undef
  end.
(** optimizers::Function::setFreeParamValues / setParamValues: assumed to check the
    length against the function's own parameter vector before calling setValues_. *)
Definition setValues (sel : param -> bool) (m : model) (vs : list Z) : result model :=
  if (length vs =? count_sel sel (m_par m))%nat then setValues_ sel m vs else Threw EBadLength m.

(** optimizers::Function::setParam(Parameter): assumed to replace the parameter of that
    name, and to throw ParameterNotFound if there is none. *)
Fixpoint set_named (ps : list param) (q : param) : option (list param) :=
  match ps with
  | [] => None
  | p :: ps' => if q_name p =? q_name q then Some (q :: ps') else option_map (cons p) (set_named ps' q)
  end.
(** SourceModel.cxx:321-334 with funcName "Spectrum" ([isSpectrum]). *)
Definition setParam (m : model) (q : param) (isSpectrum : bool) (n : Z) : result model :=
  match mfind n (m_src m) with
  | Some s => if isSpectrum then
                match set_named (s_params s) q with
                | Some ps => Done (syncParams (mk_model (minsert n (with_params s ps) (m_src m)) (m_par m) (m_freeSrcs m)))
                | None => Threw EParNotFound m
                end
              else Threw EUnknown m
  | None => Threw EUnknown m
  end.

(** SourceModel.cxx:388-398: the inner loop over one source's parameters. *)
Fixpoint set_params_src (ps : list param) (qs : list param) (n : nat) {struct n} : list param * option (result unit) :=
  match n with
  | O => (ps, None)
  | S n' => match qs with
            | [] => (ps, Some Undef)
            | q :: qs' => match set_named ps q with
                          | Some ps' => set_params_src ps' qs' n'
                          | None => (ps, Some (Threw EParNotFound tt))
                          end
            end
  end.
Fixpoint set_params_all (sel : param -> bool) (srcs : smap source) (qs : list param) : smap source * option (result unit) :=
  match srcs with
  | [] => ([], None)
  | (n, s) :: rest =>
      let k := count_sel sel (s_params s) in
      let (ps, e) := set_params_src (s_params s) qs k in
      match e with
      | Some _ => ((n, with_params s ps) :: rest, e)
      | None => let (r, e') := set_params_all sel rest (skipn k qs) in ((n, with_params s ps) :: r, e')
      end
  end.
(** SourceModel.cxx:376-400. *)
Definition setParams (sel : param -> bool) (m : model) (qs : list param) : result model :=
  if (length qs =? count_sel sel (m_par m))%nat then
    let (srcs, e) := set_params_all sel (m_src m) qs in
    match e with
    | None => Done (syncParams (mk_model srcs (m_par m) (m_freeSrcs m)))
    | Some (Threw x _) => Threw x (mk_model srcs (m_par m) (m_freeSrcs m))
    | Some _ => Undef
    end
  else Threw EBadLength m.

(** ** A program using the container *)
(** The model, the source objects the calling program owns, the objects destroyed so
    far, and a bound on the identities handed out. *)
Record world := mk_world { w_model : model; w_caller : list source; w_freed : list nat; w_next : nat }.
Definition empty_world : world := mk_world empty_model [] [] 0.

Definition sel_free (p : param) : bool := q_free p.
Definition sel_all (p : param) : bool := true.

Inductive op :=
| OpNew (name : Z) (ps : list param)        (* the program builds a source *)
| OpAdd (i : nat) (fromClone : bool)        (* addSource(caller[i], fromClone) *)
| OpDel (name : Z)                          (* deleteSource, the result goes to the caller *)
| OpDelAll
| OpSetParam (q : param) (isSpectrum : bool) (name : Z)
| OpSetFree (vs : list Z)
| OpSetAll (vs : list Z)
| OpSetParams (qs : list param)
| OpSetFreeParams (qs : list param).

Definition drop_nth {A} (l : list A) (i : nat) : list A := firstn i l ++ skipn (S i) l.

(** One call: new world and the exception, if any; [None] if undefined. *)
Definition lift (w : world) (r : result model) : option (world * option exn) :=
  match r with
  | Done m => Some (mk_world m (w_caller w) (w_freed w) (w_next w), None)
  | Threw e m => Some (mk_world m (w_caller w) (w_freed w) (w_next w), Some e)
  | Undef => None
  end.
Definition step (w : world) (o : op) : option (world * option exn) :=
  match o with
  | OpNew n ps => Some (mk_world (w_model w) (w_caller w ++ [mk_src (w_next w) n ps None]) (w_freed w) (S (w_next w)), None)
  | OpAdd i fromClone =>
      match nth_error (w_caller w) i with
      | None => Some (w, None)
      | Some s =>
          if fromClone then
            let s' := s_clone (w_next w) s in
            match addSource (w_model w) s' with
            | Done m => Some (mk_world m (w_caller w) (w_freed w) (w_next w + w_next w), None)
            | Threw e m => Some (mk_world m (w_caller w) (w_freed w) (w_next w), Some e)
            | Undef => None
            end
          else
            match addSource (w_model w) s with
            | Done m => Some (mk_world m (drop_nth (w_caller w) i) (w_freed w) (w_next w), None)
            | Threw e m => Some (mk_world m (w_caller w) (w_freed w) (w_next w), Some e)
            | Undef => None
            end
      end
  | OpDel n =>
      match deleteSource (w_model w) n with
      | (Done m, Some s) => Some (mk_world m (w_caller w ++ [s]) (w_freed w) (w_next w), None)
      | (Threw e m, _) => Some (mk_world m (w_caller w) (w_freed w) (w_next w), Some e)
      | _ => None
      end
  | OpDelAll =>
      match deleteAllSources (w_model w) with
      | (Done m, f) => Some (mk_world m (w_caller w) (w_freed w ++ flat_map s_ids f) (w_next w), None)
      | (Threw e m, f) => Some (mk_world m (w_caller w) (w_freed w ++ flat_map s_ids f) (w_next w), Some e)
      | _ => None
      end
  | OpSetParam q b n => lift w (setParam (w_model w) q b n)
  | OpSetFree vs => lift w (setValues sel_free (w_model w) vs)
  | OpSetAll vs => lift w (setValues sel_all (w_model w) vs)
  | OpSetParams qs => lift w (setParams sel_all (w_model w) qs)
  | OpSetFreeParams qs => lift w (setParams sel_free (w_model w) qs)
  end.
Fixpoint run (w : world) (ops : list op) : option (world * list (option exn)) :=
  match ops with
  | [] => Some (w, [])
  | o :: ops' => match step w o with
                 | None => None
                 | Some (w', e) => match run w' ops' with
                                   | None => None
                                   | Some (w'', es) => Some (w'', e :: es)
                                   end
                 end
  end.

(** ** Moving sources between models *)
(** SourceModel.cxx:294-303 (283-292 is the same with the roles exchanged): the state of
    both models after the call; the exception if any. *)
Definition give_source (a b : model) (n : Z) : model * model * option exn :=
  match deleteSource a n with
  | (Done a', Some s) => match addSource b s with
                         | Done b' => (a', b', None)
                         | Threw e b' => (a', b', Some e)
                         | Undef => (a', b, None)
                         end
  | (Threw e a', _) => (a', b, Some e)
  | _ => (a, b, None)
  end.
Definition steal_source (a b : model) (n : Z) : model * model * option exn :=
  let '(b', a', e) := give_source b a n in (a', b', e).

(** CompositeSource.cxx:218-229 without source maps: move one source from the model into the
    composite under construction. *)
Fixpoint steal_all (m : model) (comp : smap source) (ns : list Z) : model * smap source * option exn :=
  match ns with
  | [] => (m, comp, None)
  | n :: ns' =>
      match deleteSource m n with
      | (Done m', Some s) =>
          match mfind (s_name s) comp with
          | Some _ => (m', comp, Some EDuplicate)
          | None => steal_all m' (minsert (s_name s) s comp) ns'
          end
      | (Threw e m', _) => (m', comp, Some e)
      | _ => (m, comp, None)
      end
  end.
(** SourceModel.cxx:305-315; [id] is the identity of the new composite and [ps] the parameters
    of its spectrum.  On an exception the composite is not reachable from the model. *)
Definition mergeSources (m : model) (id : nat) (compName : Z) (ps : list param) (ns : list Z) : model * option exn :=
  let '(m1, comp, e) := steal_all m [] ns in
  match e with
  | Some x => (m1, Some x)
  | None => match addSource m1 (mk_src id compName ps (Some comp)) with
            | Done m2 => (m2, None)
            | Threw x m2 => (m2, Some x)
            | Undef => (m1, None)
            end
  end.
(** SourceModel.cxx:263-281; give_source of CompositeSource.cxx:231-244. *)
Fixpoint give_all (m : model) (l : smap source) : model * option exn :=
  match l with
  | [] => (m, None)
  | (_, s) :: l' => match addSource m s with
                    | Done m' => give_all m' l'
                    | Threw e m' => (m', Some e)
                    | Undef => (m, None)
                    end
  end.
Definition splitCompositeSource (m : model) (compName : Z) : model * option exn :=
  match deleteSource m compName with
  | (Done m', Some s) => match s_subs s with
                         | Some l => give_all m' l
                         | None => (m', Some ENotComposite)
                         end
  | (Threw e m', _) => (m', Some e)
  | _ => (m, None)
  end.

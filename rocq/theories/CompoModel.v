(** Model of sources made of other sources: src/CompositeSource.cxx, with the parts of PointSource, DiffuseSource,
    SourceModel, BinnedLikelihood and SourceMapCache it rests on.

    Densities are over the reals; the spectra and the responses of the members are arbitrary.  For moving sources the
    names are integers (they are only compared) and a source map is its image; [build] is what createSourceMap computes
    for a source. *)
From Coq Require Import Reals ZArith String List Bool.
From Verif Require Import Base SMap AccumModel.
Import ListNotations.
Local Open Scope string_scope.
Local Open Scope list_scope.
Local Open Scope R_scope.

(** ** Densities *)

(** A member, for one event: is it a point source; its spectrum at the energy of the event; the response at the place
    of the event; the value of its parameter "Prefactor" if it has one; the derivatives of its spectrum by the name of
    the parameter. *)
Record member := mk_member {
  mb_point : bool;
  mb_spec : R;
  mb_resp : R;
  mb_prefactor : option R;
  mb_deriv : string -> option R }.

(** Source.h:56, CachedResponse: is it filled, and with what; [None] is the null pointer. *)
Notation cached := (option (bool * R)) (only parsing).

(** PointSource.cxx:105-115, 128-138: the response, from the cache if it is filled. *)
Definition response (m : member) (c : cached) : R * cached :=
  match c with
  | Some (true, r) => (r, c)
  | Some (false, _) => (mb_resp m, Some (true, mb_resp m))
  | None => (mb_resp m, None)
  end.

(** PointSource.cxx:102-117, DiffuseSource.cxx:134-159 (which does not look at the cache). *)
Definition fluxDensity1 (m : member) (c : cached) : R * cached :=
  if mb_point m then let (r, c') := response m c in (mb_spec m * r, c')
  else (mb_spec m * mb_resp m, c).

(** PointSource.cxx:154-204, DiffuseSource.cxx:161-198: a parameter that does not exist is an exception. *)
Definition fluxDensityDeriv1 (m : member) (p : string) (c : cached) : outcome (R * cached) :=
  let general :=
    match mb_deriv m p with
    | None => Throw
    | Some d => if mb_point m then let (r, c') := response m c in Ok (r * d, c') else Ok (d * mb_resp m, c)
    end in
  if String.eqb p "Prefactor" then
    match mb_prefactor m with
    | None => Throw
    | Some q => if Reqb q 0 then general
                else if mb_point m then let (v, c') := fluxDensity1 m c in Ok (v / q, c')
                else let (v, _) := fluxDensity1 m None in Ok (v / q, c)
    end
  else general.

(** CompositeSource.cxx:88-116; [s] is the composite's own spectrum at the energy. *)
Definition fluxDensity (s : R) (ms : list member) (c : cached) : R * cached :=
  let '(k, c') := fold_left (fun kc m => let (v, c') := fluxDensity1 m (snd kc) in (kahan_add Rplus Rminus (fst kc) v, c'))
                    ms (kahan_init 0, c) in
  (k_sum k * s, c').

(** CompositeSource.cxx:118-156. *)
Definition fluxDensityDeriv (s : R) (ms : list member) (p : string) (c : cached) : outcome (R * cached) :=
  obind (mfold (fun st m =>
    obind (fluxDensityDeriv1 m p (snd st)) (fun vc =>
    let '(v, c') := vc in
    let '(kp, kn) := fst st in
    if Rltb 0 v then Ok ((kahan_add Rplus Rminus kp v, kn), c')
    else Ok ((kp, kahan_add Rplus Rminus kn (- v)), c'))) ms ((kahan_init 0, kahan_init 0), c)) (fun st =>
  let '((kp, kn), c') := st in
  Ok ((k_sum kp - k_sum kn) * s, c')).

(** CompositeSource.cxx:164-185: [integral] is computeEnergyIntegral. *)
Definition flux (integral : (R -> R) -> R -> R -> R) (spectrum : R -> R) (ms : list member) (emin emax : R) : R :=
  integral spectrum emin emax.

(** CompositeSource.cxx:159-162 with Source.cxx:66-81: the exposure is never computed, so it is empty; the energies are
    those of the region of interest (23, 43).  What is returned are the values of the integrand. *)
Definition computeExposure (energies : list R) : outcome (list R) := Throw.
Definition npredIntegrand (spectrum : R -> R) (energies exposure : list R) : outcome (list R) :=
  mfold (fun l k => obind (vec_get energies k) (fun e => obind (vec_get exposure k) (fun x => Ok (l ++ [spectrum e * x]))))
    (seq 0 (length energies)) [].

(** ** Moving sources and their maps *)
Inductive exn := EDuplicate | EUnknown | ENoMap | ENoCache | EMapDuplicate | ENotComposite | EFixed.

Section Maps.
Context {A : Type}.
Local Open Scope Z_scope.

(** A source: identity, name, fixedSpectrum(); for a composite its sources and its source map cache ([None]: the null
    pointer). *)
Inductive source := mk_s (id : nat) (name : Z) (fixed : bool) (sub : option (list (Z * source) * option (list (Z * A)))).
Definition s_id (s : source) := let (i, _, _, _) := s in i.
Definition s_name (s : source) := let (_, n, _, _) := s in n.
Definition s_fixed (s : source) := let (_, _, f, _) := s in f.
Definition s_sub (s : source) := let (_, _, _, l) := s in l.

(** SourceMapCache.cxx:157-160, createSourceMap. *)
Variable build : source -> A.
(** Is the model a BinnedLikelihood; its configuration's use_single_fixed_map. *)
Variables binned single_fixed : bool.

(** m_sources, the maps of m_srcMapCache, m_fixedSources. *)
Record model := mk_model { m_src : smap source; m_maps : smap A; m_fixed : list Z }.

(** SourceMapCache.cxx:112-147: the map of a source, built if there is none.  Simplification: a point source always has
    a map (computePointSources), and the file of source maps has none. *)
Definition get_map (maps : smap A) (s : source) : smap A :=
  match mfind (s_name s) maps with Some _ => maps | None => minsert (s_name s) (build s) maps end.

(** std::find and vector::erase. *)
Fixpoint erase_first (n : Z) (l : list Z) : list Z :=
  match l with [] => [] | x :: l' => if x =? n then l' else x :: erase_first n l' end.

(** BinnedLikelihood.cxx:352-372 (a list of fixed sources exists in a binned likelihood only), SourceModel.cxx:208-218.
    The counts of the fixed model are not part of this model. *)
Definition deleteSource (m : model) (n : Z) : model * (source + exn) :=
  let sub := fun m => match mfind n (m_src m) with
                      | Some s => (mk_model (merase n (m_src m)) (m_maps m) (m_fixed m), inl s)
                      | None => (m, inr EUnknown)
                      end in
  if existsb (Z.eqb n) (m_fixed m) then
    match mfind n (m_src m) with
    | None => (m, inr EUnknown)
    | Some s => sub (mk_model (m_src m) (get_map (m_maps m) s) (erase_first n (m_fixed m)))
    end
  else sub m.

(** BinnedLikelihood.cxx:323-339, 864-902, SourceModel.cxx:197-206. *)
Definition addSource (m : model) (s : source) (srcMap : option A) : model * option exn :=
  match mfind (s_name s) (m_src m) with
  | Some _ => (m, Some EDuplicate)
  | None =>
      let src := minsert (s_name s) s (m_src m) in
      if negb binned then (mk_model src (m_maps m) (m_fixed m), None)
      else if single_fixed && s_fixed s then
        if existsb (Z.eqb (s_name s)) (m_fixed m) then (mk_model src (m_maps m) (m_fixed m), Some EFixed)
        else (mk_model src (get_map (m_maps m) s) (m_fixed m ++ [s_name s]), None)
      else match srcMap with
           | None => (mk_model src (get_map (m_maps m) s) (m_fixed m), None)
           | Some a => (mk_model src (minsert (s_name s) a (merase (s_name s) (m_maps m))) (m_fixed m), None)
           end
  end.

(** The sources and the source map cache of a composite. *)
Notation body := (smap source * option (smap A))%type (only parsing).

(** CompositeSource.cxx:58-69, SourceMapCache.cxx:163-173. *)
Definition comp_addSource (c : body) (s : source) (srcMap : option A) : body * option exn :=
  let (subs, cache) := c in
  match mfind (s_name s) subs with
  | Some _ => (c, Some EDuplicate)
  | None =>
      let subs' := minsert (s_name s) s subs in
      match srcMap with
      | None => ((subs', cache), None)
      | Some a =>
          match cache with
          | None => ((subs', None), Some ENoCache)
          | Some k => match mfind (s_name s) k with
                      | Some _ => ((subs', cache), Some EMapDuplicate)
                      | None => ((subs', Some (minsert (s_name s) a k)), None)
                      end
          end
      end
  end.

(** CompositeSource.cxx:218-229, SourceMapCache.cxx:175-182. *)
Definition steal_source (c : body) (m : model) (n : Z) : body * model * option exn :=
  match deleteSource m n with
  | (m', inr e) => (c, m', Some e)
  | (m', inl s) =>
      if binned then
        match mfind n (m_maps m') with
        | None => (c, m', Some ENoMap)
        | Some a => let (c', e) := comp_addSource c s (Some a) in
                    (c', mk_model (m_src m') (merase n (m_maps m')) (m_fixed m'), e)
        end
      else let (c', e) := comp_addSource c s None in (c', m', e)
  end.

(** CompositeSource.cxx:231-244, SourceModel.cxx:294-303. *)
Definition give_source (c : body) (m : model) (n : Z) : body * model * option exn :=
  let (subs, cache) := c in
  let go := fun cache srcMap =>
    match mfind n subs with
    | None => ((subs, cache), m, Some EUnknown)
    | Some s => let (m', e) := addSource m s srcMap in ((merase n subs, cache), m', e)
    end in
  match cache with
  | None => go None None
  | Some k => match mfind n k with
              | None => (c, m, Some ENoMap)
              | Some a => go (Some (merase n k)) (Some a)
              end
  end.

Fixpoint steal_all (c : body) (m : model) (ns : list Z) : body * model * option exn :=
  match ns with
  | [] => (c, m, None)
  | n :: ns' => match steal_source c m n with
                | (c', m', None) => steal_all c' m' ns'
                | r => r
                end
  end.
Fixpoint give_all (c : body) (m : model) (ns : list Z) : body * model * option exn :=
  match ns with
  | [] => (c, m, None)
  | n :: ns' => match give_source c m n with
                | (c', m', None) => give_all c' m' ns'
                | r => r
                end
  end.

(** SourceModel.cxx:305-315, BinnedLikelihood.cxx:993-995.  After an exception nothing refers to the composite. *)
Definition mergeSources (m : model) (id : nat) (name : Z) (fixed : bool) (ns : list Z) : model * option exn :=
  match steal_all ([], if binned then Some [] else None) m ns with
  | (_, m', Some e) => (m', Some e)
  | (c, m', None) => addSource m' (mk_s id name fixed (Some c)) None
  end.

(** SourceModel.cxx:263-281. *)
Definition splitCompositeSource (m : model) (name : Z) : model * option exn :=
  match deleteSource m name with
  | (m', inr e) => (m', Some e)
  | (m', inl s) =>
      match s_sub s with
      | None => (m', Some ENotComposite)
      | Some c => match give_all c m' (mkeys (fst c)) with (_, m'', e) => (m'', e) end
      end
  end.
End Maps.
Arguments source : clear implicits.
Arguments model : clear implicits.

(** Model of the source map cache (src/SourceMapCache.cxx): who owns the maps, and when they are freed.
    A map is an address; addresses are never given out twice (a simplification: any use of a freed address is then visible).
    Of a map only what it was built for is kept: its image is a function of that. *)
From Coq Require Import String PeanoNat Bool List.
From Verif Require Import Base.
Import ListNotations.
Local Open Scope list_scope.
Local Open Scope outcome_scope.

Notation ptr := nat (only parsing).

(** src/SourceMapCache.cxx: m_srcMaps is a std::map<std::string, SourceMap*>, a finite function on names (null pointers are [None]).
    The order of iteration matters nowhere below. *)
Definition table := list (string * option ptr).
Fixpoint mfind (n : string) (t : table) : option (option ptr) :=
  match t with
  | [] => None
  | (m, p) :: t => if String.eqb m n then Some p else mfind n t
  end.
(** map::erase(key) *)
Fixpoint mrem (n : string) (t : table) : table :=
  match t with
  | [] => []
  | (m, p) :: t => if String.eqb m n then mrem n t else (m, p) :: mrem n t
  end.
(** m[key] = p *)
Definition mset (n : string) (p : option ptr) (t : table) : table := (n, p) :: mrem n t.

Section Cache.
Variable A : Type.   (* what a map shows: the position or the sky map of a source, with the settings used *)

Inductive kind := Point | Diffuse | Composite | Unknown.
Record source := { sname : string; skind : kind; sky : A }.
(** What the outside says during a call: is there a map for this name in the source maps file, and should it be used
    (src/SourceMapCache.cxx:121), are point sources to be computed (m_config.computePointSources()), and does the constructor of
    SourceMap return (it reads files and can throw). *)
Record env := { in_file : option A; points : bool; makes : bool }.

(** The heap: entry p is the map at address p, [None] once freed. *)
Record state := { heap : list (option A); caches : list table }.

Definition live (s : state) (p : ptr) : bool := match nth_error (heap s) p with Some (Some _) => true | _ => false end.
Definition cache (s : state) (c : nat) : table := nth c (caches s) [].
Definition with_cache (s : state) (c : nat) (t : table) : state := {| heap := heap s; caches := upd (caches s) c t |}.
(** new SourceMap(...) *)
Definition alloc (s : state) (a : A) : state * ptr := ({| heap := heap s ++ [Some a]; caches := caches s |}, List.length (heap s)).
(** delete p: of a null pointer nothing, of a freed one undefined *)
Definition free (s : state) (p : option ptr) : outcome state :=
  match p with
  | None => Ok s
  | Some p => if live s p then Ok {| heap := upd (heap s) p None; caches := caches s |} else UB
  end.

(** src/SourceMapCache.cxx:108-145. The state after the call is returned also when it throws. *)
Definition get (s : state) (c : nat) (src : source) (e : env) : state * outcome (option ptr) :=
  let n := sname src in
  match mfind n (cache s c) with
  | Some None => (s, UB)   (* srcMap->setSource(src) through a null pointer *)
  | Some (Some p) => if live s p then (s, Ok (Some p)) else (s, UB)
  | None =>
      let build (a : A) :=
        if makes e then let (s', p) := alloc s a in (with_cache s' c (mset n (Some p) (cache s' c)), Ok (Some p)) else (s, Throw) in
      match in_file e with
      | Some a => build a
      | None =>
          match skind src with
          | Point => if points e then build (sky src) else (with_cache s c (mset n None (cache s c)), Ok None)
          | Diffuse | Composite => build (sky src)
          | Unknown => (s, Throw)
          end
      end
  end.

(** src/SourceMapCache.cxx:157-160: m_srcMaps[srcName] makes a null entry for an unknown name, which is then erased *)
Definition erase (s : state) (c : nat) (n : string) : state * outcome unit :=
  match free s (match mfind n (cache s c) with Some p => p | None => None end) with
  | Ok s' => (with_cache s' c (mrem n (cache s' c)), Ok tt)
  | Throw => (s, Throw)
  | UB => (s, UB)
  end.

(** src/SourceMapCache.cxx:163-173 *)
Definition insert (s : state) (c : nat) (n : string) (p : ptr) : state * outcome unit :=
  match mfind n (cache s c) with
  | None => (with_cache s c (mset n (Some p) (cache s c)), Ok tt)
  | Some q => match q with Some q' => if Nat.eqb q' p then (s, Ok tt) else (s, Throw) | None => (s, Throw) end
  end.

(** src/SourceMapCache.cxx:175-182 *)
Definition remove (s : state) (c : nat) (n : string) : state * outcome (option ptr) :=
  match mfind n (cache s c) with
  | None => (s, Throw)
  | Some p => (with_cache s c (mrem n (cache s c)), Ok p)
  end.

(** src/SourceMapCache.cxx:222-247. getType() is "Diffuse" for the diffuse sources only. *)
Definition load (s : state) (c : nat) (src : source) (recreate : bool) (e : env) : state * outcome unit :=
  let n := sname src in
  if (match skind src with Diffuse => true | _ => false end) || points e then
    if recreate then
      match free s (match mfind n (cache s c) with Some p => p | None => None end) with
      | Ok s' => if makes e then let (s'', p) := alloc s' (sky src) in (with_cache s'' c (mset n (Some p) (cache s'' c)), Ok tt)
                 else (s', Throw)   (* the entry still holds the freed address *)
      | Throw => (s, Throw)
      | UB => (s, UB)
      end
    else let (s', r) := get s c src e in (s', match r with Ok _ => Ok tt | Throw => Throw | UB => UB end)
  else (s, Ok tt).

(** src/SourceMapCache.cxx:336-349, of one source: the map is built for the call and dropped again if there was none before.
    The use of the map is the call of reloadIfCleared through the pointer; [keep] is m_config.save_all_srcmaps(), looked at only
    in the version for several sources (351-368), which does the same for each. *)
Definition compute (s : state) (c : nat) (src : source) (keep : bool) (e : env) : state * outcome unit :=
  let had := match mfind (sname src) (cache s c) with Some _ => true | None => false end in
  let (s', r) := get s c src e in
  match r with
  | Ok None => (s', UB)
  | Ok (Some p) => if live s' p then if negb had && negb keep then erase s' c (sname src) else (s', Ok tt) else (s', UB)
  | Throw => (s', Throw)
  | UB => (s', UB)
  end.

(** src/BinnedLikelihood.cxx:333-336 (addSource with a map): what was cached under the name is dropped for the map given *)
Definition replace (s : state) (c : nat) (n : string) (p : ptr) : state * outcome unit :=
  let (s', r) := erase s c n in match r with Ok _ => insert s' c n p | _ => (s', r) end.

(** src/SourceMapCache.cxx:63-68, the destructor: every entry is deleted. A destroyed cache is not used again; here it is left empty. *)
Fixpoint free_all (s : state) (t : table) : outcome state :=
  match t with
  | [] => Ok s
  | (_, p) :: t => s' <- free s p;; free_all s' t
  end.
Definition destroy (s : state) (c : nat) : state * outcome unit :=
  match free_all s (cache s c) with
  | Ok s' => (with_cache s' c [], Ok tt)
  | Throw => (s, Throw)
  | UB => (s, UB)
  end.

(** src/BinnedLikelihood.cxx:323-340, addSource without a map, of a source that is not part of the fixed model: its map is loaded *)
Definition addSource (s : state) (c : nat) (src : source) (e : env) : state * outcome unit := load s c src false e.
(** src/BinnedLikelihood.cxx:352-372, deleteSource of a source that is not part of the fixed model: the cache is not told *)
Definition deleteSource (s : state) (c : nat) (n : string) : state := s.

(** The calls a program can make. [Create] is createSourceMap (src/SourceMapCache.cxx:148-152), whose result belongs to the caller;
    [Delete] is the caller's own delete. *)
Inductive op :=
  | Get (c : nat) (src : source) (e : env)
  | Load (c : nat) (src : source) (recreate : bool) (e : env)
  | Compute (c : nat) (src : source) (keep : bool) (e : env)
  | Erase (c : nat) (n : string)
  | Insert (c : nat) (n : string) (p : ptr)
  | Replace (c : nat) (n : string) (p : ptr)
  | Remove (c : nat) (n : string)
  | Create (a : A)
  | Delete (p : ptr)
  | Destroy (c : nat).

Definition unitr (r : outcome unit) : outcome (option ptr) := match r with Ok _ => Ok None | Throw => Throw | UB => UB end.
Definition exec1 (s : state) (o : op) : state * outcome (option ptr) :=
  match o with
  | Get c src e => get s c src e
  | Load c src rec e => let (s', r) := load s c src rec e in (s', unitr r)
  | Compute c src keep e => let (s', r) := compute s c src keep e in (s', unitr r)
  | Erase c n => let (s', r) := erase s c n in (s', unitr r)
  | Insert c n p => let (s', r) := insert s c n p in (s', unitr r)
  | Replace c n p => let (s', r) := replace s c n p in (s', unitr r)
  | Remove c n => remove s c n
  | Create a => let (s', p) := alloc s a in (s', Ok (Some p))
  | Delete p => match free s (Some p) with Ok s' => (s', Ok None) | Throw => (s, Throw) | UB => (s, UB) end
  | Destroy c => let (s', r) := destroy s c in (s', unitr r)
  end.

Definition start (ncaches : nat) : state := {| heap := []; caches := repeat [] ncaches |}.
End Cache.
Arguments sname {A}. Arguments skind {A}. Arguments sky {A}. Arguments in_file {A}. Arguments points {A}. Arguments makes {A}.
Arguments heap {A}. Arguments caches {A}. Arguments live {A}. Arguments cache {A}. Arguments with_cache {A}. Arguments alloc {A}. Arguments free {A}.
Arguments get {A}. Arguments erase {A}. Arguments insert {A}. Arguments remove {A}. Arguments load {A}. Arguments compute {A}. Arguments replace {A}.
Arguments addSource {A}. Arguments deleteSource {A}. Arguments free_all {A}. Arguments destroy {A}. Arguments exec1 {A}. Arguments start {A}.
Arguments Get {A}. Arguments Load {A}. Arguments Compute {A}. Arguments Erase {A}. Arguments Insert {A}. Arguments Replace {A}. Arguments Remove {A}.
Arguments Create {A}. Arguments Delete {A}. Arguments Destroy {A}.

(** Model of the library of sky maps (src/WcsMapLibrary.cxx) and of the objects that use its maps (src/MapBase.cxx).
    Maps are addresses, never given out twice (a simplification that makes every use of a freed map visible); of a map only where it
    was read from, and how often and by what factors it was rebinned, is kept. *)
From Coq Require Import String PeanoNat Bool List.
From Verif Require Import Base.
Import ListNotations.
Local Open Scope list_scope.
Local Open Scope outcome_scope.

(** src/WcsMapLibrary.cxx:38: filename + "::" + extname *)
Definition key (f e : string) : string := (f ++ "::" ++ e)%string.

(** m_library, a std::map<std::string, ProjMap*>; the order of iteration matters nowhere below *)
Definition lib := list (string * nat).
Fixpoint lfind (k : string) (l : lib) : option nat :=
  match l with
  | [] => None
  | (m, p) :: l => if String.eqb m k then Some p else lfind k l
  end.
Fixpoint lrem (k : string) (l : lib) : lib :=
  match l with
  | [] => []
  | (m, p) :: l => if String.eqb m k then lrem k l else (m, p) :: lrem k l
  end.
Definition lset (k : string) (p : nat) (l : lib) : lib := (k, p) :: lrem k l.

(** Where a map comes from: file and extension, and the factors of rebin. *)
Record image := { from : string * string; factors : list nat }.
(** Likelihood/MapBase.h:119-121,129: m_fitsFile, m_expandedFileName, m_extension, m_projmap *)
Record obj := { file : string; expanded : string; ext : string; proj : option nat }.
(** All there is: the maps ([None]: freed), the library, the MapBase objects ([None]: destroyed), the observers. *)
Record world := { maps : list (option image); library : lib; objs : list (option obj); observers : list nat }.

Definition with_objs (w : world) (os : list (option obj)) : world := {| maps := maps w; library := library w; objs := os; observers := observers w |}.
Definition with_lib (w : world) (l : lib) : world := {| maps := maps w; library := l; objs := objs w; observers := observers w |}.
Definition with_observers (w : world) (l : list nat) : world := {| maps := maps w; library := library w; objs := objs w; observers := l |}.
Definition with_maps (w : world) (m : list (option image)) : world := {| maps := m; library := library w; objs := objs w; observers := observers w |}.

Definition live (w : world) (p : nat) : bool := match nth_error (maps w) p with Some (Some _) => true | _ => false end.
Definition new_map (w : world) (i : image) : world * nat := (with_maps w (maps w ++ [Some i]), length (maps w)).
Definition free (w : world) (p : nat) : outcome world := if live w p then Ok (with_maps w (upd (maps w) p None)) else UB.
(** An object; calling a destroyed one is undefined. *)
Definition the (w : world) (o : nat) : outcome obj := match nth_error (objs w) o with Some (Some b) => Ok b | _ => UB end.
Definition set (w : world) (o : nat) (b : obj) : world := with_objs w (upd (objs w) o (Some b)).

(** src/WcsMapLibrary.cxx:36-65. [ok]: the file can be read as a map; if not, the constructor or the switch throws.
    The state after the call is returned also when it throws. *)
Definition wcsmap (w : world) (f e : string) (ok : bool) : world * outcome nat :=
  match lfind (key f e) (library w) with
  | Some p => (w, Ok p)
  | None => if ok then let (w', p) := new_map w {| from := (f, e); factors := [] |} in (with_lib w' (lset (key f e) p (library w')), Ok p) else (w, Throw)
  end.
(** src/WcsMapLibrary.cxx:94-98 *)
Definition has_map (w : world) (f e : string) : bool := match lfind (key f e) (library w) with Some _ => true | None => false end.
(** src/MapBase.cxx:110-114 *)
Definition update (w : world) (o : nat) : outcome world :=
  b <- the w o;; Ok (if has_map w (expanded b) (ext b) then w else set w o {| file := file b; expanded := expanded b; ext := ext b; proj := None |}).
(** src/WcsMapLibrary.cxx:108-113 *)
Fixpoint notify_each (w : world) (os : list nat) : outcome world :=
  match os with
  | [] => Ok w
  | o :: os => w' <- update w o;; notify_each w' os
  end.
Definition notify (w : world) : outcome world := notify_each w (observers w).
(** src/WcsMapLibrary.cxx:67-76 *)
Definition delete_map (w : world) (f e : string) : outcome world :=
  match lfind (key f e) (library w) with
  | Some p => w' <- free w p;; notify (with_lib w' (lrem (key f e) (library w')))
  | None => notify w
  end.
(** src/WcsMapLibrary.cxx:84-92 *)
Definition delete_map_ptr (w : world) (p : nat) : outcome world :=
  match find (fun i => Nat.eqb (snd i) p) (library w) with
  | Some (k, q) => w' <- free w q;; Ok (with_lib w' (lrem k (library w')))
  | None => Ok w
  end.
(** src/WcsMapLibrary.cxx:100-106: a std::map keyed by the observer *)
Definition add_observer (w : world) (o : nat) : world := if existsb (Nat.eqb o) (observers w) then w else with_observers w (o :: observers w).
Definition remove_observer (w : world) (o : nat) : world := with_observers w (List.remove Nat.eq_dec o (observers w)).

Section Objects.
(** facilities::Util::expandEnvVar (external) *)
Variable expand : string -> string.

(** src/MapBase.cxx:31-40 *)
Definition new_obj (w : world) (f e : string) : world * nat := (with_objs w (objs w ++ [Some {| file := f; expanded := ""; ext := e; proj := None |}]), length (objs w)).
(** src/MapBase.cxx:47-52, the copy constructor (used by clone() of SpatialMap and MapCubeFunction2): the observer list is not told *)
Definition copy (w : world) (o : nat) : outcome (world * nat) := b <- the w o;; Ok (with_objs w (objs w ++ [Some b]), length (objs w)).
(** src/MapBase.cxx:54-62 *)
Definition assign (w : world) (o o' : nat) : outcome world := b <- the w o;; b' <- the w o';; Ok (if Nat.eqb o o' then w else set w o b').
(** src/MapBase.cxx:43-45 *)
Definition destroy (w : world) (o : nat) : outcome world := _ <- the w o;; Ok (remove_observer (with_objs w (upd (objs w) o None)) o).

(** src/MapBase.cxx:74-93 *)
Definition read (w : world) (o : nat) (ok : bool) : world * outcome unit :=
  match the w o with
  | Ok b =>
      let x := expand (file b) in
      let w1 := set w o {| file := file b; expanded := x; ext := ext b; proj := proj b |} in
      let (w2, r) := wcsmap w1 x (ext b) ok in
      match r with
      | Ok p => (add_observer (set w2 o {| file := file b; expanded := x; ext := ext b; proj := Some p |}) o, Ok tt)
      | Throw => (w2, Throw)
      | UB => (w2, UB)
      end
  | Throw => (w, Throw)
  | UB => (w, UB)
  end.
(** src/MapBase.cxx:64-72 *)
Definition read_file (w : world) (o : nat) (f e : string) (load ok : bool) : world * outcome unit :=
  match the w o with
  | Ok b => let w1 := set w o {| file := f; expanded := expanded b; ext := e; proj := proj b |} in if load then read w1 o ok else (w1, Ok tt)
  | Throw => (w, Throw)
  | UB => (w, UB)
  end.
(** src/MapBase.cxx:95-100 and Likelihood/MapBase.h:77-82: the map is read if there is none. The caller uses the reference it gets, so that
    a pointer to a freed map counts as undefined here. *)
Definition projmap (w : world) (o : nat) (ok : bool) : world * outcome nat :=
  match the w o with
  | Ok b =>
      match proj b with
      | Some p => (w, if live w p then Ok p else UB)
      | None =>
          let (w', r) := read w o ok in
          match r with
          | Ok _ => (w', b' <- the w' o;; match proj b' with Some p => if live w' p then Ok p else UB | None => UB end)
          | Throw => (w', Throw)
          | UB => (w', UB)
          end
      end
  | Throw => (w, Throw)
  | UB => (w, UB)
  end.
(** src/MapBase.cxx:102-108 *)
Definition deleteMap (w : world) (o : nat) : outcome world :=
  b <- the w o;; w' <- delete_map w (expanded b) (ext b);; b' <- the w' o;;
  Ok (set w' o {| file := file b'; expanded := expanded b'; ext := ext b'; proj := None |}).
(** src/MapBase.cxx:198-207 *)
Definition rebin (w : world) (o : nat) (factor : nat) : outcome world :=
  b <- the w o;;
  match proj b with
  | None => Ok w
  | Some p =>
      match nth_error (maps w) p with
      | Some (Some i) =>
          let (w1, tmp) := new_map w {| from := from i; factors := factors i ++ [factor] |} in
          w2 <- deleteMap w1 o;; b2 <- the w2 o;;
          Ok (set w2 o {| file := file b2; expanded := expanded b2; ext := ext b2; proj := Some tmp |})
      | _ => UB
      end
  end.

Inductive op :=
  | Wcsmap (f e : string) (ok : bool)
  | DeleteMap (f e : string)
  | DeletePtr (p : nat)
  | NewObj (f e : string)
  | Copy (o : nat)
  | Assign (o o' : nat)
  | DestroyObj (o : nat)
  | ReadFile (o : nat) (f e : string) (load ok : bool)
  | Projmap (o : nat) (ok : bool)
  | DeleteObjMap (o : nat)
  | Rebin (o : nat) (factor : nat).

Definition none {A} (r : outcome A) : outcome (option nat) := match r with Ok _ => Ok None | Throw => Throw | UB => UB end.
Definition some (r : outcome nat) : outcome (option nat) := match r with Ok p => Ok (Some p) | Throw => Throw | UB => UB end.
Definition keepw (w : world) (r : outcome world) : world * outcome (option nat) := (match r with Ok w' => w' | _ => w end, none r).
(** One call: the world after it, and the map or object it returns. *)
Definition exec (w : world) (o : op) : world * outcome (option nat) :=
  match o with
  | Wcsmap f e ok => let (w', r) := wcsmap w f e ok in (w', some r)
  | DeleteMap f e => keepw w (delete_map w f e)
  | DeletePtr p => keepw w (delete_map_ptr w p)
  | NewObj f e => let (w', b) := new_obj w f e in (w', Ok (Some b))
  | Copy b => match copy w b with Ok (w', b') => (w', Ok (Some b')) | Throw => (w, Throw) | UB => (w, UB) end
  | Assign a b => keepw w (assign w a b)
  | DestroyObj b => keepw w (destroy w b)
  | ReadFile b f e load ok => let (w', r) := read_file w b f e load ok in (w', none r)
  | Projmap b ok => let (w', r) := projmap w b ok in (w', some r)
  | DeleteObjMap b => keepw w (deleteMap w b)
  | Rebin b n => keepw w (rebin w b n)
  end.
Fixpoint execs (w : world) (ops : list op) : world * list (outcome (option nat)) :=
  match ops with
  | [] => (w, [])
  | o :: ops => let (w1, r) := exec w o in let (w2, rs) := execs w1 ops in (w2, r :: rs)
  end.
End Objects.
Definition start : world := {| maps := []; library := []; objs := []; observers := [] |}.

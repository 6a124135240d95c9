(** Model of the spectra that wrap another spectrum: EnergyBand (src/EnergyBand.cxx) and ScaleFactor (src/ScaleFactor.cxx).
    Parameters and spectra live at addresses, so that which parameter is shared with which spectrum is visible. *)
From Coq Require Import Reals String List Bool PeanoNat.
From Verif Require Import Base AccumModel.
Import ListNotations.
Local Open Scope R_scope.
Local Open Scope list_scope.
Local Open Scope outcome_scope.

(** optimizers::Parameter (external): value, scale, bounds ([None]: unlimited), flags and error *)
Record par := { pname : string; pval : R; pscale : R; plo : option R; phi : option R; pfree : bool; pfixed : bool; perr : R }.
Definition true_value (p : par) : R := pval p * pscale p.
Definition above (lo : option R) (v : R) : bool := match lo with Some l => Rleb l v | None => true end.
Definition below (hi : option R) (v : R) : bool := match hi with Some h => Rleb v h | None => true end.
Definition with_value (p : par) (v : R) : par :=
  {| pname := pname p; pval := v; pscale := pscale p; plo := plo p; phi := phi p; pfree := pfree p; pfixed := pfixed p; perr := perr p |}.
Definition with_scale (p : par) (c : R) : par :=
  {| pname := pname p; pval := pval p; pscale := c; plo := plo p; phi := phi p; pfree := pfree p; pfixed := pfixed p; perr := perr p |}.
(** optimizers::Parameter::setValue and setBounds (external): OutOfBounds is thrown if the value is outside the bounds *)
Definition set_value (p : par) (v : R) : outcome par := if above (plo p) v && below (phi p) v then Ok (with_value p v) else Throw.
Definition set_bounds (p : par) (lo hi : option R) : outcome par :=
  if above lo (pval p) && below hi (pval p)
  then Ok {| pname := pname p; pval := pval p; pscale := pscale p; plo := lo; phi := hi; pfree := pfree p; pfixed := pfixed p; perr := perr p |} else Throw.
(** src/EnergyBand.cxx:121-131 and src/ScaleFactor.cxx:142-152: the setters are called one by one on the parameter found by its name;
    what was set before one throws stays *)
Definition set_like (p q : par) : par * outcome unit :=
  match set_value p (pval q) with
  | Ok p1 =>
      let p2 := with_scale p1 (pscale q) in
      match set_bounds p2 (plo q) (phi q) with
      | Ok p3 => ({| pname := pname p3; pval := pval p3; pscale := pscale p3; plo := plo p3; phi := phi p3; pfree := pfree q; pfixed := pfixed q; perr := perr q |}, Ok tt)
      | Throw => (p2, Throw)
      | UB => (p2, UB)
      end
  | Throw => (p, Throw)
  | UB => (p, UB)
  end.
(** a parameter as addParam makes it (external): scale 1, no bounds *)
Definition new_par (n : string) (v : R) (free : bool) : par := {| pname := n; pval := v; pscale := 1; plo := None; phi := None; pfree := free; pfixed := false; perr := 0 |}.

(** position of the first parameter of a name *)
Fixpoint position {T} (nm : T -> string) (n : string) (l : list T) : option nat :=
  match l with
  | [] => None
  | p :: l => if String.eqb (nm p) n then Some 0%nat else match position nm n l with Some i => Some (S i) | None => None end
  end.

Section Wrapped.
(** A wrapped spectrum: its kind, with everything in it that is not a parameter, and its parameters. *)
Variable K : Type.
(** Function::operator() and Function::derivByParam of the wrapped spectrum *)
Variable sval : K -> list par -> R -> R.
Variable sder : K -> list par -> string -> R -> outcome R.

Record func := { fkind : K; fpars : list par }.
Inductive cls := Band | Factor (complement : bool).
(** An element of m_parameter: its own data, and the parameter it refers to, if it does (address of a spectrum, position). *)
Record slot := { own : par; ref : option (nat * nat) }.
Record dec := { dcls : cls; dspec : nat; slots : list slot }.
Record state := { heap : list (option func); decs : list (option dec) }.

Definition the_func (s : state) (a : nat) : outcome func := match nth_error (heap s) a with Some (Some f) => Ok f | _ => UB end.
Definition the_dec (s : state) (d : nat) : outcome dec := match nth_error (decs s) d with Some (Some x) => Ok x | _ => UB end.
Definition set_func (s : state) (a : nat) (f : func) : state := {| heap := upd (heap s) a (Some f); decs := decs s |}.
Definition set_dec (s : state) (d : nat) (x : dec) : state := {| heap := heap s; decs := upd (decs s) d (Some x) |}.

(** Reading a parameter through its reference (external Parameter: getValue, getScale ... forward to the parameter referred to) *)
Definition slot_par (s : state) (sl : slot) : outcome par :=
  match ref sl with
  | None => Ok (own sl)
  | Some (a, i) => f <- the_func s a;; vec_get (fpars f) i
  end.
(** Writing one *)
Definition slot_set (s : state) (d : nat) (x : dec) (i : nat) (sl : slot) (p : par) : state :=
  match ref sl with
  | None => set_dec s d {| dcls := dcls x; dspec := dspec x; slots := upd (slots x) i {| own := p; ref := None |} |}
  | Some (a, j) => match the_func s a with Ok f => set_func s a {| fkind := fkind f; fpars := upd (fpars f) j p |} | _ => s end
  end.

(** src/EnergyBand.cxx:49-54 and src/ScaleFactor.cxx:80-85; [n] more parameters from [i] on. What was done before an exception stays. *)
Fixpoint set_refs (a : nat) (f : func) (n i : nat) (l : list slot) : list slot * outcome unit :=
  match n with
  | O => (l, Ok tt)
  | S n =>
      match nth_error l i with
      | None => (l, UB)
      | Some sl =>
          match position pname (pname (own sl)) (fpars f) with
          | None => (l, Throw)
          | Some j => set_refs a f n (S i) (upd l i {| own := own sl; ref := Some (a, j) |})
          end
      end
  end.

(** src/ScaleFactor.cxx:50-69; the two parts of the condition on the bounds are joined by && *)
Definition check_complement (s : state) (x : dec) : outcome unit :=
  match dcls x with
  | Factor true =>
      f <- the_func s (dspec x);; sl <- vec_get (slots x) (length (fpars f));; p <- slot_par s sl;;
      if negb (match plo p with Some l => Reqb l 0 | None => false end) && negb (match phi p with Some h => Reqb h 1 | None => false end) then Throw
      else if negb (Reqb (pscale p) 1) then Throw else Ok tt
  | _ => Ok tt
  end.

(** What the two classes add to the parameters of the spectrum: src/EnergyBand.cxx:45-46, src/ScaleFactor.cxx:47 *)
Inductive extra := Limits (emin emax : R) | Scale (v : R) (complement : bool).
Definition extra_cls (e : extra) : cls := match e with Limits _ _ => Band | Scale _ c => Factor c end.
Definition extra_pars (e : extra) : list par :=
  match e with Limits a b => [new_par "Emin" a false; new_par "Emax" b false] | Scale v _ => [new_par "ScaleFactor" v true] end.
(** the constructors, src/EnergyBand.cxx:27-47, src/ScaleFactor.cxx:30-48. If the constructor throws there is no object (the clone is lost). *)
Definition new_dec (s : state) (k : K) (ps : list par) (e : extra) : state * outcome nat :=
  let f := {| fkind := k; fpars := ps |} in
  let a := length (heap s) in
  let s1 := {| heap := heap s ++ [Some f]; decs := decs s |} in
  let (l, r) := set_refs a f (length ps) 0 (map (fun p => {| own := p; ref := None |}) ps) in
  let x := {| dcls := extra_cls e; dspec := a; slots := l ++ map (fun p => {| own := p; ref := None |}) (extra_pars e) |} in
  match (_ <- r;; check_complement s1 x) with
  | Ok _ => ({| heap := heap s1; decs := decs s1 ++ [Some x] |}, Ok (length (decs s)))
  | Throw => (s1, Throw)
  | UB => (s1, UB)
  end.
(** copy constructors: src/EnergyBand.cxx:56-60, src/ScaleFactor.cxx:87-92. m_parameter is copied, with its references, and then pointed to the new clone. *)
Definition copy (s : state) (d : nat) : state * outcome nat :=
  match (x <- the_dec s d;; f <- the_func s (dspec x);; Ok (x, f)) with
  | Ok (x, f) =>
      let a := length (heap s) in
      let s1 := {| heap := heap s ++ [Some f]; decs := decs s |} in
      let (l, r) := set_refs a f (length (fpars f)) 0 (slots x) in
      match r with
      | Ok _ => ({| heap := heap s1; decs := decs s ++ [Some {| dcls := dcls x; dspec := a; slots := l |}] |}, Ok (length (decs s)))
      | Throw => (s1, Throw)
      | UB => (s1, UB)
      end
  | Throw => (s, Throw)
  | UB => (s, UB)
  end.
(** src/EnergyBand.cxx:62-68, src/ScaleFactor.cxx:94-101: the old clone is lost; the base class, with m_parameter, is not assigned. Both sides
    are of one class. *)
Definition assign (s : state) (d d' : nat) : state * outcome unit :=
  match (x <- the_dec s d;; y <- the_dec s d';; f <- the_func s (dspec y);; Ok (x, (y, f))) with
  | Ok (x, (y, f)) =>
      if Nat.eqb d d' then (s, Ok tt) else
      let a := length (heap s) in
      let (l, r) := set_refs a f (length (fpars f)) 0 (slots x) in
      ({| heap := heap s ++ [Some f]; decs := upd (decs s) d (Some {| dcls := dcls y; dspec := a; slots := l |}) |}, r)
  | Throw => (s, Throw)
  | UB => (s, UB)
  end.
(** destructors: src/EnergyBand.cxx:70-75, src/ScaleFactor.cxx:103-108 *)
Definition destroy (s : state) (d : nat) : outcome state :=
  x <- the_dec s d;; _ <- the_func s (dspec x);; Ok {| heap := upd (heap s) (dspec x) None; decs := upd (decs s) d None |}.

(** A parameter of the object, by name: Function::parameter (external) throws ParameterNotFound. *)
Definition change (s : state) (d : nat) (n : string) (g : par -> par * outcome unit) : state * outcome unit :=
  match the_dec s d with
  | Ok x =>
      match position (fun sl => pname (own sl)) n (slots x) with
      | None => (s, Throw)
      | Some i =>
          match nth_error (slots x) i with
          | Some sl => match slot_par s sl with Ok p => let (p', r) := g p in (slot_set s d x i sl p', r) | Throw => (s, Throw) | UB => (s, UB) end
          | None => (s, UB)
          end
      end
  | Throw => (s, Throw)
  | UB => (s, UB)
  end.
(** src/EnergyBand.cxx:121-131, src/ScaleFactor.cxx:142-152 *)
Definition set_param (s : state) (d : nat) (q : par) : state * outcome unit := change s d (pname q) (fun p => set_like p q).
(** Function::setParam(name, value) (external), which optimizers use *)
Definition set_number (s : state) (d : nat) (n : string) (v : R) : state * outcome unit :=
  change s d n (fun p => match set_value p v with Ok p' => (p', Ok tt) | Throw => (p, Throw) | UB => (p, UB) end).
(** Setting a parameter of the wrapped spectrum itself, Likelihood/ScaleFactor.h:47-49 *)
Definition set_inner (s : state) (d : nat) (n : string) (v : R) : state * outcome unit :=
  match (x <- the_dec s d;; f <- the_func s (dspec x);; Ok (x, f)) with
  | Ok (x, f) =>
      match position pname n (fpars f) with
      | None => (s, Throw)
      | Some j =>
          match nth_error (fpars f) j with
          | Some p => match set_value p v with Ok p' => (set_func s (dspec x) {| fkind := fkind f; fpars := upd (fpars f) j p' |}, Ok tt) | Throw => (s, Throw) | UB => (s, UB) end
          | None => (s, UB)
          end
      end
  | Throw => (s, Throw)
  | UB => (s, UB)
  end.
(** Likelihood/ScaleFactor.h:37-41: the flag is set before the check throws *)
Definition set_flag (s : state) (d : nat) (c : bool) : state * outcome unit :=
  match the_dec s d with
  | Ok x =>
      match dcls x with
      | Band => (s, Throw)
      | Factor _ => let x' := {| dcls := Factor c; dspec := dspec x; slots := slots x |} in let s' := set_dec s d x' in (s', check_complement s' x')
      end
  | Throw => (s, Throw)
  | UB => (s, UB)
  end.

(** src/EnergyBand.cxx:77-87, src/ScaleFactor.cxx:71-78,110-113 *)
Definition value (s : state) (d : nat) (e : R) : outcome R :=
  x <- the_dec s d;; f <- the_func s (dspec x);;
  match dcls x with
  | Band =>
      s1 <- vec_get (slots x) (length (fpars f));; p1 <- slot_par s s1;; s2 <- vec_get (slots x) (length (fpars f) + 1);; p2 <- slot_par s s2;;
      if Rltb e (true_value p1) || Rleb (true_value p2) e then Ok 0 else Ok (sval (fkind f) (fpars f) e)
  | Factor c =>
      s1 <- vec_get (slots x) (length (fpars f));; p <- slot_par s s1;;
      Ok ((if c then 1 - true_value p else true_value p) * sval (fkind f) (fpars f) e)
  end.
(** src/EnergyBand.cxx:89-119, src/ScaleFactor.cxx:115-140 *)
Definition deriv (s : state) (d : nat) (n : string) (e : R) : outcome R :=
  x <- the_dec s d;;
  match position (fun sl => pname (own sl)) n (slots x) with
  | None => Throw
  | Some i =>
      f <- the_func s (dspec x);;
      match dcls x with
      | Band =>
          if Nat.leb (length (fpars f)) i then Throw else
          s1 <- vec_get (slots x) (length (fpars f));; p1 <- slot_par s s1;; s2 <- vec_get (slots x) (length (fpars f) + 1);; p2 <- slot_par s s2;;
          if Rleb (true_value p1) e && Rltb e (true_value p2) then sder (fkind f) (fpars f) n e else Ok 0
      | Factor c =>
          s1 <- vec_get (slots x) (length (fpars f));; p <- slot_par s s1;;
          if Nat.ltb i (length (fpars f)) then g <- sder (fkind f) (fpars f) n e;; Ok ((if c then 1 - true_value p else true_value p) * g)
          else if c then Ok (- sval (fkind f) (fpars f) e * pscale p) else Ok (sval (fkind f) (fpars f) e * pscale p)
      end
  end.
(** Function::getParams (external) *)
Definition params (s : state) (d : nat) : outcome (list par) := x <- the_dec s d;; mfold (fun acc sl => p <- slot_par s sl;; Ok (acc ++ [p])) (slots x) [].

Inductive op :=
  | New (k : K) (ps : list par) (e : extra)
  | Copy (d : nat)
  | Assign (d d' : nat)
  | Destroy (d : nat)
  | SetParam (d : nat) (q : par)
  | SetNumber (d : nat) (n : string) (v : R)
  | SetInner (d : nat) (n : string) (v : R)
  | SetFlag (d : nat) (c : bool).
Definition none {T} (r : outcome T) : outcome (option nat) := match r with Ok _ => Ok None | Throw => Throw | UB => UB end.
Definition some (r : outcome nat) : outcome (option nat) := match r with Ok p => Ok (Some p) | Throw => Throw | UB => UB end.
(** One call: the state after it, also if it throws, and the object it makes. *)
Definition exec (s : state) (o : op) : state * outcome (option nat) :=
  match o with
  | New k ps e => let (s', r) := new_dec s k ps e in (s', some r)
  | Copy d => let (s', r) := copy s d in (s', some r)
  | Assign d d' => let (s', r) := assign s d d' in (s', none r)
  | Destroy d => match destroy s d with Ok s' => (s', Ok None) | Throw => (s, Throw) | UB => (s, UB) end
  | SetParam d q => let (s', r) := set_param s d q in (s', none r)
  | SetNumber d n v => let (s', r) := set_number s d n v in (s', none r)
  | SetInner d n v => let (s', r) := set_inner s d n v in (s', none r)
  | SetFlag d c => let (s', r) := set_flag s d c in (s', none r)
  end.
Fixpoint execs (s : state) (ops : list op) : state * list (outcome (option nat)) :=
  match ops with
  | [] => (s, [])
  | o :: ops => let (s1, r) := exec s o in let (s2, rs) := execs s1 ops in (s2, r :: rs)
  end.
Definition start : state := {| heap := []; decs := [] |}.
End Wrapped.
Arguments fkind {K}. Arguments fpars {K}. Arguments heap {K}. Arguments decs {K}. Arguments the_func {K}. Arguments the_dec {K}. Arguments set_func {K}. Arguments set_dec {K}.
Arguments slot_par {K}. Arguments slot_set {K}. Arguments set_refs {K}. Arguments check_complement {K}. Arguments new_dec {K}. Arguments copy {K}. Arguments assign {K}. Arguments destroy {K}.
Arguments change {K}. Arguments set_param {K}. Arguments set_number {K}. Arguments set_inner {K}. Arguments set_flag {K}. Arguments value {K}. Arguments deriv {K}. Arguments params {K}.
Arguments exec {K}. Arguments execs {K}. Arguments start {K}. Arguments New {K}. Arguments Copy {K}. Arguments Assign {K}. Arguments Destroy {K}. Arguments SetParam {K}. Arguments SetNumber {K}. Arguments SetInner {K}. Arguments SetFlag {K}.

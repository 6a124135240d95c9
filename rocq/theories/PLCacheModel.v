(** PowerLaw2 with its caches (C32).  Numbers are any type with the operations the code uses; nothing is assumed about
    them here, so that C's doubles are an instance (PLCacheFloat). *)
From Verif Require Import Base.

(** The arithmetic and the library functions of doubles. *)
Record numbers := Numbers {
  num : Type;
  nzero : num; none : num; ntwo : num; nm1 : num;                            (** 0., 1., 2., -1. *)
  nadd : num -> num -> num; nsub : num -> num -> num; nmul : num -> num -> num; ndiv : num -> num -> num; nneg : num -> num;
  nlog : num -> num; nexp : num -> num; npow : num -> num -> num;
  neqb : num -> num -> bool                                                  (** operator== *) }.

Section cache.
Context (A : numbers).
Notation D := (num A).
Notation "a + b" := (nadd A a b). Notation "a - b" := (nsub A a b). Notation "a * b" := (nmul A a b). Notation "a / b" := (ndiv A a b).
Notation log := (nlog A). Notation exp := (nexp A). Notation pow := (npow A). Notation eqb := (neqb A).
Notation one := (none A). Notation two := (ntwo A).

(** The parameters' true values, and the scales of the two that have derivatives. *)
Record params := Params { pInt : D; pIndex : D; pLo : D; pHi : D; scInt : D; scIndex : D }.

(** Likelihood/PowerLaw2.h:83-92, the cached members *)
Record cache := Cache { cGamma : D; cXLo : D; cXHi : D; cLogXLo : D; cLogXHi : D; cPowXLo : D; cPowXHi : D; cGXFact : D; cX : D; cPowX : D }.
(** Likelihood/PowerLaw2.h:93-94, the static members: s_cX, s_cLogX *)
Definition static : Type := D * D.
(** One object: parameters and cache. *)
Definition object : Type := params * cache.
Definition state : Type := static * list object.

(** src/PowerLaw2.cxx:23-24 *)
Definition init : state := ((nzero A, nzero A), []).

(** Likelihood/PowerLaw2.h:50-80, updateCache *)
Definition updateCache (x gamma xlo xhi : D) (s : static) (c : cache) : static * cache :=
  let c1 := if negb (eqb gamma (cGamma c)) || negb (eqb xlo (cXLo c)) || negb (eqb xhi (cXHi c)) then
    let opg := one + gamma in
    let plo := pow xlo opg in let phi := pow xhi opg in
    Cache gamma xlo xhi (log xlo) (log xhi) plo phi (if negb (eqb gamma (nm1 A)) then opg / (phi - plo) else cGXFact c) (x + one) (cPowX c)
  else c in
  let s1 := if negb (eqb (fst s) x) then (x, log x) else s in
  let c2 := if negb (eqb (cX c1) x) then Cache (cGamma c1) (cXLo c1) (cXHi c1) (cLogXLo c1) (cLogXHi c1) (cPowXLo c1) (cPowXHi c1) (cGXFact c1) x (exp (snd s1 * gamma)) else c1 in
  (s1, c2).

(** src/PowerLaw2.cxx:26-40, constructor.  [junk]: what the uninitialised members hold. *)
Definition construct (integral index lower upper : D) (junk : cache) (s : static) : static * object :=
  let p := Params integral index lower upper one one in
  let c := Cache (index + one) (cXLo junk) (cXHi junk) (cLogXLo junk) (cLogXHi junk) (cPowXLo junk) (cPowXHi junk) (cGXFact junk) (nzero A) (cPowX junk) in
  let '(s1, c1) := updateCache one index lower upper s c in (s1, (p, c1)).

(** src/PowerLaw2.cxx:42-59 *)
Definition value (x : D) (s : static) (o : object) : static * object * D :=
  let p := fst o in
  let '(s1, c) := updateCache x (pIndex p) (pLo p) (pHi p) s (snd o) in
  (s1, (p, c), if eqb (pIndex p) (nm1 A) then pInt p / x / (cLogXHi c - cLogXLo c) else pInt p * cGXFact c * cPowX c).

(** src/PowerLaw2.cxx:61-118.  [k] is the parameter's position; None: not the name of a parameter. *)
Definition deriv (x : D) (k : option nat) (s : static) (o : object) : static * object * outcome D :=
  match k with
  | None => (s, o, Throw)
  | Some k =>
    let p := fst o in
    let gamma := pIndex p in
    let '(s1, c) := updateCache x gamma (pLo p) (pHi p) s (snd o) in
    (s1, (p, c),
     match k with
     | 0 => Ok ((if eqb gamma (nm1 A) then one / x / (cLogXHi c - cLogXLo c) else cGXFact c * cPowX c) * scInt p)
     | 1 => Ok ((if eqb gamma (nm1 A) then
                  nneg A (pInt p) / (two * x) * (cLogXHi c + cLogXLo c - two * snd s1) / (cLogXHi c - cLogXLo c)
                else
                  let opg := one + gamma in
                  pInt p * (cPowXHi c * (one - opg * (cLogXHi c - snd s1)) - cPowXLo c * (one - opg * (cLogXLo c - snd s1))) / pow (cPowXHi c - cPowXLo c) two * cPowX c) * scIndex p)
     | 2 | 3 => Throw
     | _ => Throw
     end)
  end.

(** What a program can do with PowerLaw2 objects; they are numbered in the order of their creation.  OnNew: the
    constructor.  OnCopy: clone() (PowerLaw2.h:36-38), the implicit copy constructor.  OnAssign: the implicit operator=.
    OnSet: any change of the parameters' values or scales (Function's methods, which do not touch the cache). *)
Inductive call :=
| OnNew (integral index lower upper : D) (junk : cache)
| OnCopy (i : nat)
| OnAssign (i j : nat)
| OnSet (i : nat) (p : params)
| OnValue (i : nat) (x : D)
| OnDeriv (i : nat) (k : option nat) (x : D).

(** One call: the new state and the number returned, if the call returns one.  A call on an object that does not exist is [UB]. *)
Definition step (st : state) (c : call) : state * outcome (option D) :=
  let '(s, os) := st in
  match c with
  | OnNew n g lo hi junk => let '(s1, o) := construct n g lo hi junk s in ((s1, os ++ [o]), Ok None)
  | OnCopy i => match nth_error os i with Some o => ((s, os ++ [o]), Ok None) | None => (st, UB) end
  | OnAssign i j => match nth_error os i, nth_error os j with Some _, Some o => ((s, upd os i o), Ok None) | _, _ => (st, UB) end
  | OnSet i p => match nth_error os i with Some o => ((s, upd os i (p, snd o)), Ok None) | None => (st, UB) end
  | OnValue i x => match nth_error os i with Some o => let '(s1, o1, v) := value x s o in ((s1, upd os i o1), Ok (Some v)) | None => (st, UB) end
  | OnDeriv i k x => match nth_error os i with
      | Some o => let '(s1, o1, v) := deriv x k s o in ((s1, upd os i o1), obind v (fun d => Ok (Some d))) | None => (st, UB) end
  end.
(** The results of a history. *)
Fixpoint run (st : state) (cs : list call) : list (outcome (option D)) :=
  match cs with [] => [] | c :: cs => let '(st1, r) := step st c in r :: run st1 cs end.
End cache.

(** What EnergyBand and ScaleFactor objects are to their users: values of their own, without sharing. *)
From Coq Require Import Reals String List Bool.
From Verif Require Import Base AccumModel DecModel.
Import ListNotations.
Local Open Scope R_scope.
Local Open Scope list_scope.

(** The wrapped spectrum with its parameters, and what is added to it. *)
Inductive rest := IsBand (emin emax : par) | IsFactor (complement : bool) (factor : par).
Definition rest_pars (r : rest) : list par := match r with IsBand p q => [p; q] | IsFactor _ p => [p] end.
Definition rest_names (r : rest) : list string := match r with IsBand _ _ => ["Emin"; "Emax"] | IsFactor _ _ => ["ScaleFactor"] end%string.
Definition rest_new (e : extra) : rest :=
  match e with Limits a b => IsBand (new_par "Emin" a false) (new_par "Emax" b false) | Scale v c => IsFactor c (new_par "ScaleFactor" v true) end.

Section Wrapped.
Variable K : Type.
Variable sval : K -> list par -> R -> R.
Variable sder : K -> list par -> string -> R -> outcome R.
Record object := { kind : K; inner : list par; added : rest }.

(** The spectrum inside [Emin, Emax) and zero outside; the spectrum times the factor, or times one minus the factor. *)
Definition the_value (o : object) (e : R) : R :=
  match added o with
  | IsBand p q => if Rleb (true_value p) e && Rltb e (true_value q) then sval (kind o) (inner o) e else 0
  | IsFactor c p => (if c then 1 - true_value p else true_value p) * sval (kind o) (inner o) e
  end.
Definition the_params (o : object) : list par := inner o ++ rest_pars (added o).
Definition is_inner (o : object) (n : string) : bool := existsb (fun p => String.eqb (pname p) n) (inner o).
(** Derivatives by the parameters of the spectrum and by the factor; there are none by the limits, nor by names that are unknown. *)
Definition the_deriv (o : object) (n : string) (e : R) : outcome R :=
  if is_inner o n then
    match added o with
    | IsBand p q => if Rleb (true_value p) e && Rltb e (true_value q) then sder (kind o) (inner o) n e else Ok 0
    | IsFactor c p => match sder (kind o) (inner o) n e with Ok g => Ok ((if c then 1 - true_value p else true_value p) * g) | Throw => Throw | UB => UB end
    end
  else
    match added o with
    | IsBand _ _ => Throw
    | IsFactor c p => if String.eqb n "ScaleFactor" then Ok ((if c then -1 else 1) * pscale p * sval (kind o) (inner o) e) else Throw
    end.

(** Doing [g] to the parameter of a name. *)
Fixpoint change_in (n : string) (g : par -> par * outcome unit) (l : list par) : option (list par * outcome unit) :=
  match l with
  | [] => None
  | p :: l => if String.eqb (pname p) n then let (p', r) := g p in Some (p' :: l, r) else match change_in n g l with Some (l', r) => Some (p :: l', r) | None => None end
  end.
Definition change_added (n : string) (g : par -> par * outcome unit) (a : rest) : option (rest * outcome unit) :=
  match a with
  | IsBand p q =>
      if String.eqb n "Emin" then let (p', r) := g p in Some (IsBand p' q, r)
      else if String.eqb n "Emax" then let (q', r) := g q in Some (IsBand p q', r) else None
  | IsFactor c p => if String.eqb n "ScaleFactor" then let (p', r) := g p in Some (IsFactor c p', r) else None
  end.
Definition change_par (n : string) (g : par -> par * outcome unit) (o : object) : object * outcome unit :=
  match change_in n g (inner o) with
  | Some (l, r) => ({| kind := kind o; inner := l; added := added o |}, r)
  | None =>
      match change_added n g (added o) with
      | Some (a, r) => ({| kind := kind o; inner := inner o; added := a |}, r)
      | None => (o, Throw)
      end
  end.
Definition give (v : R) (p : par) : par * outcome unit := if above (plo p) v && below (phi p) v then (with_value p v, Ok tt) else (p, Throw).

Definition objects := list (option object).
Definition at_ (os : objects) (d : nat) : option object := match nth_error os d with Some o => o | None => None end.
Definition apply_to (os : objects) (d : nat) (g : object -> object * outcome unit) : objects * outcome (option nat) :=
  match at_ os d with Some o => let (o', r) := g o in (upd os d (Some o'), match r with Ok _ => Ok None | Throw => Throw | UB => UB end) | None => (os, UB) end.
(** What a call is expected to do. *)
Definition expected (os : objects) (c : op K) : objects * outcome (option nat) :=
  match c with
  | New k ps e => (os ++ [Some {| kind := k; inner := ps; added := rest_new e |}], Ok (Some (length os)))
  | Copy d => (os ++ [at_ os d], Ok (Some (length os)))
  | Assign d d' => (upd os d (at_ os d'), Ok None)
  | Destroy d => (upd os d None, Ok None)
  | SetParam d q => apply_to os d (change_par (pname q) (fun p => set_like p q))
  | SetNumber d n v => apply_to os d (change_par n (give v))
  | SetInner d n v => apply_to os d (fun o => match change_in n (give v) (inner o) with Some (l, r) => ({| kind := kind o; inner := l; added := added o |}, r) | None => (o, Throw) end)
  | SetFlag d c => apply_to os d (fun o => match added o with IsBand _ _ => (o, Throw) | IsFactor _ p => ({| kind := kind o; inner := inner o; added := IsFactor c p |}, Ok tt) end)
  end.

(** Calls on objects that exist, with parameter names that differ; assignment only between objects that have the same added parameters
    (and parameter names); the complement form not in a constructor, and only chosen if the bounds of the factor are 0 and 1. *)
Definition same_added (a b : rest) : Prop := match a, b with IsBand p q, IsBand p' q' => p = p' /\ q = q' | IsFactor _ p, IsFactor _ p' => p = p' | _, _ => False end.
Definition usual (os : objects) (c : op K) : Prop :=
  match c with
  | New k ps e => NoDup (map pname ps ++ map pname (rest_pars (rest_new e))) /\ match e with Scale _ true => False | _ => True end
  | Copy d | Destroy d | SetParam d _ | SetNumber d _ _ | SetInner d _ _ => at_ os d <> None
  | Assign d d' => exists o o', at_ os d = Some o /\ at_ os d' = Some o' /\ (map pname (inner o) = map pname (inner o') /\ same_added (added o) (added o'))
  | SetFlag d c => exists o, at_ os d = Some o /\ match added o with IsBand _ _ => True | IsFactor _ p => c = false \/ plo p = Some 0 /\ phi p = Some 1 /\ pscale p = 1 end
  end.
Fixpoint usuals (os : objects) (cs : list (op K)) : Prop :=
  match cs with
  | [] => True
  | c :: cs => usual os c /\ usuals (fst (expected os c)) cs
  end.
Fixpoint expecteds (os : objects) (cs : list (op K)) : objects * list (outcome (option nat)) :=
  match cs with
  | [] => (os, [])
  | c :: cs => let (os1, r) := expected os c in let (os2, rs) := expecteds os1 cs in (os2, r :: rs)
  end.
End Wrapped.
Arguments kind {K}. Arguments inner {K}. Arguments added {K}. Arguments the_value {K}. Arguments the_params {K}. Arguments the_deriv {K}. Arguments is_inner {K}. Arguments change_par {K}. Arguments at_ {K}. Arguments apply_to {K}.
Arguments expected {K}. Arguments expecteds {K}. Arguments usual {K}. Arguments usuals {K}.

(** Specification for C32: PowerLaw2 without caches. *)
From Verif Require Import Base PLCacheModel.

Section spec.
Context (A : numbers).
Notation D := (num A).
Notation "a + b" := (nadd A a b). Notation "a - b" := (nsub A a b). Notation "a * b" := (nmul A a b). Notation "a / b" := (ndiv A a b).
Notation log := (nlog A). Notation exp := (nexp A). Notation pow := (npow A). Notation eqb := (neqb A).
Notation one := (none A). Notation two := (ntwo A).

(** The function of the current parameters and the energy. *)
Definition closed_value (p : params A) (x : D) : D :=
  let g := pIndex A p in let lo := pLo A p in let hi := pHi A p in
  if eqb g (nm1 A) then pInt A p / x / (log hi - log lo)
  else pInt A p * ((one + g) / (pow hi (one + g) - pow lo (one + g))) * exp (log x * g).
Definition closed_deriv (p : params A) (k : option nat) (x : D) : outcome D :=
  let g := pIndex A p in let lo := pLo A p in let hi := pHi A p in
  let plo := pow lo (one + g) in let phi := pow hi (one + g) in
  match k with
  | Some 0 => Ok ((if eqb g (nm1 A) then one / x / (log hi - log lo) else (one + g) / (phi - plo) * exp (log x * g)) * scInt A p)
  | Some 1 => Ok ((if eqb g (nm1 A) then nneg A (pInt A p) / (two * x) * (log hi + log lo - two * log x) / (log hi - log lo)
      else pInt A p * (phi * (one - (one + g) * (log hi - log x)) - plo * (one - (one + g) * (log lo - log x))) / pow (phi - plo) two * exp (log x * g)) * scIndex A p)
  | _ => Throw
  end.
(** Objects are their parameters. *)
Definition ref_step (os : list (params A)) (c : call A) : list (params A) * outcome (option D) :=
  match c with
  | OnNew _ n g lo hi _ => (os ++ [Params A n g lo hi one one], Ok None)
  | OnCopy _ i => match nth_error os i with Some o => (os ++ [o], Ok None) | None => (os, UB) end
  | OnAssign _ i j => match nth_error os i, nth_error os j with Some _, Some o => (upd os i o, Ok None) | _, _ => (os, UB) end
  | OnSet _ i p => match nth_error os i with Some _ => (upd os i p, Ok None) | None => (os, UB) end
  | OnValue _ i x => match nth_error os i with Some p => (os, Ok (Some (closed_value p x))) | None => (os, UB) end
  | OnDeriv _ i k x => match nth_error os i with Some p => (os, obind (closed_deriv p k x) (fun d => Ok (Some d))) | None => (os, UB) end
  end.
Fixpoint ref_run (os : list (params A)) (cs : list (call A)) : list (outcome (option D)) :=
  match cs with [] => [] | c :: cs => let '(os1, r) := ref_step os c in r :: ref_run os1 cs end.

(** What is assumed of the numbers: numbers that compare equal (0. and -0. do) have the same log, the same successor and the
    same exp of a multiple, and limits that compare equal have the same powers.  0. is not 1. *)
Record laws (limit : D -> Prop) : Prop := Laws {
  law_log : forall a b, eqb a b = true -> log a = log b;
  law_succ : forall a b, eqb a b = true -> one + a = one + b;
  law_exp : forall a b l, eqb a b = true -> exp (l * a) = exp (l * b);
  law_m1 : forall a b, eqb a b = true -> eqb a (nm1 A) = eqb b (nm1 A);
  law_pow : forall a b e, limit a -> limit b -> eqb a b = true -> pow a e = pow b e;
  law_01 : eqb (nzero A) one = false }.
(** A call with arguments that adding 1. changes (energies, and a constructor's index), and with limits in [limit]. *)
Definition ordinary (limit : D -> Prop) (c : call A) : Prop :=
  match c with
  | OnNew _ n g lo hi _ => eqb g (g + one) = false /\ limit lo /\ limit hi
  | OnCopy _ _ | OnAssign _ _ _ => True
  | OnSet _ i p => limit (pLo A p) /\ limit (pHi A p)
  | OnValue _ i x | OnDeriv _ i _ x => eqb (x + one) x = false
  end.
End spec.

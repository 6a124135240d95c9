(** C32: the caches of PowerLaw2 cannot be seen. *)
From Coq Require Import Reals Lra ZArith.
From Flocq Require Import Core.Core IEEE754.BinarySingleNaN.
From Verif Require Import Base PLCacheModel PLCacheSpec PLCacheProofs PLCacheFloat.
Local Open Scope nat_scope.

(** For any numbers that obey the few [laws], in every history of constructions, copies, assignments, parameter changes, value()
    and derivByParam() calls on any number of objects, starting from the program's start and with any contents of
    uninitialised members, every call returns what the objects without caches return. *)
Theorem C32_history : forall (A : numbers) limit, laws A limit -> neqb A (nadd A (none A) (none A)) (none A) = false ->
  forall calls, Forall (ordinary A limit) calls -> run A (init A) calls = ref_run A [] calls.
Proof. intros A limit L H calls Hc. apply (run_ok A limit L calls (init A)); auto. apply init_inv. Qed.
Print Assumptions C32_history.

(** Doubles: the same for C's doubles and any library log, exp and pow (log and exp treating 0. and -0. alike).  Missing: energies and
    constructor indices beyond 2^51 (2 * 10^15 MeV), infinite or NaN; limits 0. or -0. *)
Definition ordinary_doubles (log exp : double -> double) (pow : double -> double -> double) (c : call (doubles log exp pow)) : Prop :=
  match c with
  | OnNew _ n g lo hi _ => moderate g /\ nonzero lo /\ nonzero hi
  | OnCopy _ _ | OnAssign _ _ _ => True
  | OnSet _ i p => nonzero (pLo _ p) /\ nonzero (pHi _ p)
  | OnValue _ i x | OnDeriv _ i _ x => moderate x
  end.
Theorem C32_doubles_partial : forall log exp pow, same_at_zeros log -> same_at_zeros exp ->
  forall calls, Forall (ordinary_doubles log exp pow) calls ->
  run (doubles log exp pow) (init _) calls = ref_run (doubles log exp pow) [] calls.
Proof.
  intros log exp pow Hl He calls Hc. apply (C32_history (doubles log exp pow) nonzero).
  - now apply double_laws.
  - vm_compute. reflexivity.
  - eapply Forall_impl; [|exact Hc]. intros [n g lo hi junk|i|i j|i p|i x|i k x]; simpl; auto.
    + intros (H1 & H2 & H3). split; auto. now apply succ_moves'.
    + apply succ_moves.
    + apply succ_moves.
Qed.
Print Assumptions C32_doubles_partial.

(** At an energy that adding 1. does not change, such as 2^53, the power of the energy is not computed again after a change of the
    index: the second value() returns the new normalisation times the power with the old index. *)
Definition x53 : double := of_Z (2 ^ 53).
Lemma stale53 log exp pow (n lo hi g g' : double) junk :
  let A := doubles log exp pow in
  Beqb g (dplus g (of_Z 1)) = false -> Beqb g' g = false -> Beqb g' (of_Z (-1)) = false -> Beqb g g = true -> Beqb lo lo = true -> Beqb hi hi = true ->
  run A (init A) [OnNew A n g lo hi junk; OnValue A 0 x53; OnSet A 0 (Params A n g' lo hi (none A) (none A)); OnValue A 0 x53] =
  [Ok None; Ok (Some (closed_value A (Params A n g lo hi (none A) (none A)) x53)); Ok None;
   Ok (Some (nmul A (nmul A n (ndiv A (nadd A (none A) g') (nsub A (npow A hi (nadd A (none A) g')) (npow A lo (nadd A (none A) g'))))) (nexp A (nmul A (nlog A x53) g))))].
Proof. intros A H1 H2 H3 H4 H5 H6. apply (stale A); auto; vm_compute; reflexivity. Qed.
(** So for some functions log, exp and pow it is visible that there was an earlier call. *)
Theorem C32_doubles_refuted : exists log exp pow calls, same_at_zeros log /\ same_at_zeros exp /\
  run (doubles log exp pow) (init _) calls <> ref_run (doubles log exp pow) [] calls.
Proof.
  set (log := fun _ : double => of_Z 1). set (exp := fun a : double => match a with B754_zero _ => of_Z 0 | _ => a end). set (pow := fun a b : double => a).
  set (A := doubles log exp pow).
  exists log, exp, pow.
  exists [OnNew A (of_Z 1) (of_Z 2) (of_Z 3) (of_Z 5) (Cache A (of_Z 0) (of_Z 0) (of_Z 0) (of_Z 0) (of_Z 0) (of_Z 0) (of_Z 0) (of_Z 0) (of_Z 0) (of_Z 0)); OnValue A 0 x53;
          OnSet A 0 (Params A (of_Z 1) (of_Z 4) (of_Z 3) (of_Z 5) (none A) (none A)); OnValue A 0 x53].
  split; [reflexivity|]. split; [reflexivity|].
  rewrite (stale53 log exp pow (of_Z 1) (of_Z 3) (of_Z 5) (of_Z 2) (of_Z 4)) by (vm_compute; reflexivity).
  intros H. apply (f_equal (fun l => nth_error l 3)) in H. cbn [nth_error ref_run ref_step app upd] in H.
  assert (H' : forall a b : double, Some (@Ok (option double) (Some a)) = Some (Ok (Some b)) -> Beqb a b = Beqb a a). { intros a b [= ->]. reflexivity. }
  apply H' in H. vm_compute in H. discriminate.
Qed.
Print Assumptions C32_doubles_refuted.

(** Every kind of call, with two objects taking turns, is ordinary. *)
Example C32_case : forall log exp pow junk, let A := doubles log exp pow in
  Forall (ordinary_doubles log exp pow)
   [OnNew A (of_Z 1) (of_Z (-2)) (of_Z 100) (of_Z 200000) junk; OnValue A 0 (of_Z 1000); OnCopy A 0;
    OnSet A 1 (Params A (of_Z 1) (of_Z (-1)) (of_Z 100) (of_Z 200000) (of_Z 1) (of_Z 1)); OnDeriv A 1 (Some 1) (of_Z 1000); OnDeriv A 0 (Some 0) (of_Z 2000); OnAssign A 0 1; OnValue A 0 (of_Z 1000)].
Proof.
  intros. repeat (apply Forall_cons || apply Forall_nil); cbn [ordinary_doubles pLo pHi]; repeat split; try (apply moderate_check; vm_compute; reflexivity); vm_compute; exact I.
Qed.

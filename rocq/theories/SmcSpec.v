(** What it means to own a source map, independent of how the cache works. *)
From Coq Require Import String List Bool PeanoNat.
From Verif Require Import Base SmcModel.
Import ListNotations.
Local Open Scope list_scope.

Section Spec.
Variable A : Type.

(** The maps the program itself has to delete: those it created or took out of a cache, and has not put into one or deleted. *)
Definition owned_after (owned : list ptr) (o : op A) (r : outcome (option ptr)) : list ptr :=
  match o, r with
  | Create _, Ok (Some p) => p :: owned
  | Remove _ _, Ok (Some p) => p :: owned
  | Insert _ _ p, Ok _ => List.remove Nat.eq_dec p owned
  | Replace _ _ p, Ok _ => List.remove Nat.eq_dec p owned
  | Delete p, Ok _ => List.remove Nat.eq_dec p owned
  | _, _ => owned
  end.

(** A program that keeps to this: it puts into caches, and deletes, only maps of its own, and uses caches that exist. *)
Definition polite (ncaches : nat) (owned : list ptr) (o : op A) : Prop :=
  match o with
  | Insert c _ p | Replace c _ p => c < ncaches /\ In p owned
  | Delete p => In p owned
  | Create _ => True
  | Get c _ _ | Load c _ _ _ | Compute c _ _ _ | Erase c _ | Remove c _ | Destroy c => c < ncaches
  end.

(** Every source asked for has a map: no point source unless it is in the file or point sources are computed. *)
Definition has_map_to_build (src : source A) (e : env A) : Prop := in_file e <> None \/ skind src <> Point \/ points e = true.
Definition buildable (o : op A) : Prop :=
  match o with
  | Get _ src e | Compute _ src _ e => has_map_to_build src e
  | _ => True
  end.
(** No map is rebuilt in vain. *)
Definition rebuilt (o : op A) : Prop :=
  match o with
  | Load _ _ true e => makes e = true
  | _ => True
  end.

(** A history: the state, the maps owned, and every outcome. *)
Fixpoint run (s : state A) (owned : list ptr) (ops : list (op A)) : state A * list ptr * list (outcome (option ptr)) :=
  match ops with
  | [] => (s, owned, [])
  | o :: ops => let '(s1, r) := exec1 s o in let '(s2, own, rs) := run s1 (owned_after owned o r) ops in (s2, own, r :: rs)
  end.
(** [ok] holds of every step of a history. *)
Fixpoint throughout (ok : state A -> list ptr -> op A -> Prop) (s : state A) (owned : list ptr) (ops : list (op A)) : Prop :=
  match ops with
  | [] => True
  | o :: ops => ok s owned o /\ throughout ok (fst (exec1 s o)) (owned_after owned o (snd (exec1 s o))) ops
  end.

(** Calls that are meant to part the name [n] from its map in cache [c]. *)
Definition parts (c : nat) (n : string) (o : op A) : Prop :=
  match o with
  | Erase c' n' | Remove c' n' | Replace c' n' _ => c' = c /\ n' = n
  | Load c' src true _ => c' = c /\ sname src = n
  | Destroy c' => c' = c
  | _ => False
  end.

(** A map shows [a]. *)
Definition shows (s : state A) (p : ptr) (a : A) : Prop := nth_error (heap s) p = Some (Some a).
(** Sources of one name always are at the same place [pos], also in the file; maps put into a cache are those of the source. *)
Definition at_place (pos : string -> A) (src : source A) (e : env A) : Prop := sky src = pos (sname src) /\ (forall a, in_file e = Some a -> a = pos (sname src)).
Definition unmoved (pos : string -> A) (s : state A) (o : op A) : Prop :=
  match o with
  | Get _ src e | Load _ src _ e | Compute _ src _ e => at_place pos src e
  | Insert _ n p | Replace _ n p => shows s p (pos n)
  | _ => True
  end.

(** All pointers in the caches, and the maps owned by the program. *)
Definition pointers (t : table) : list ptr := flat_map (fun e => match snd e with Some p => [p] | None => [] end) t.
Definition places (s : state A) (owned : list ptr) : list ptr := flat_map pointers (caches s) ++ owned.
End Spec.
Arguments owned_after {A}. Arguments polite {A}. Arguments has_map_to_build {A}. Arguments buildable {A}. Arguments rebuilt {A}. Arguments run {A}.
Arguments throughout {A}. Arguments parts {A}. Arguments shows {A}. Arguments at_place {A}. Arguments unmoved {A}. Arguments places {A}.

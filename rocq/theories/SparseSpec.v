(** What a SparseVector is supposed to be: a dense vector.  This file does not
    mention the model. *)
From Verif Require Import Base.
From Verif Require Import SparseModel. (* only for the type of histories, [sv_op] *)

(** A dense vector together with its null value. *)
Record dense (T : Type) := mk_dense { d_null : T; d_elems : list T }.
Arguments mk_dense {T}. Arguments d_null {T}. Arguments d_elems {T}.

(** Reading past the end yields the null value. *)
Definition d_get {T} (d : dense T) (k : nat) : T := nth k (d_elems d) (d_null d).

Definition d_step {T} (e : nat -> dense T) (o : sv_op T) : nat -> dense T :=
  match o with
  | ONew i n null => env_set e i (mk_dense null (repeat null n))
  | OFromVect i l null => env_set e i (mk_dense null l)
  | OAssign i j => env_set e i (e j)
  | OPush i x => env_set e i (mk_dense (d_null (e i)) (d_elems (e i) ++ [x]))
  | OResize i n => env_set e i (mk_dense (d_null (e i)) (vec_resize (d_elems (e i)) n (d_null (e i))))
  | OClear i => env_set e i (mk_dense (d_null (e i)) [])
  | OClearData i => env_set e i (mk_dense (d_null (e i)) (repeat (d_null (e i)) (length (d_elems (e i)))))
  | OFill i l => if length (d_elems (e i)) =? length l
                 then env_set e i (mk_dense (d_null (e i)) l) else e
  | OSwap i j => env_set (env_set e i (e j)) j (e i)
  end.

Definition d_run {T} (e : nat -> dense T) (os : list (sv_op T)) : nat -> dense T :=
  fold_left d_step os e.

(** No call in the history shrinks its vector. *)
Fixpoint never_shrinks {T} (e : nat -> dense T) (os : list (sv_op T)) : Prop :=
  match os with
  | [] => True
  | o :: os' =>
      match o with
      | OResize i n => length (d_elems (e i)) <= n
      | _ => True
      end /\ never_shrinks (d_step e o) os'
  end.

(** The shape every sparse vector built by the API has (see C01): stored
    indices strictly increasing and inside the vector. *)
From Coq Require Import Sorted.
Definition sparse_ok {T} (v : sv T) : Prop :=
  StronglySorted lt (map fst (sv_data v)) /\
  Forall (fun p => fst p < sv_size v) (sv_data v).

(** Two sparse vectors that cannot be told apart by reading them. *)
Definition same_reads {T} (v w : sv T) : Prop :=
  sv_size v = sv_size w /\ forall k, sv_get v k = sv_get w k.

(** What users of the map library rely on. *)
From Coq Require Import String Ascii List Bool PeanoNat.
From Verif Require Import Base MlibModel.
Import ListNotations.
Local Open Scope list_scope.

(** Calls on objects that exist, without copies of objects, without deleting maps by their address, without rebinning, and without
    pointing an object that holds a map to another file unless that file is then read successfully. *)
Definition exists_obj (w : world) (o : nat) : Prop := exists b, nth_error (objs w) o = Some (Some b).
Definition usual (w : world) (o : op) : Prop :=
  match o with
  | Wcsmap _ _ _ | DeleteMap _ _ | NewObj _ _ => True
  | DestroyObj b | Projmap b _ | DeleteObjMap b => exists_obj w b
  | ReadFile b _ _ load ok => exists_obj w b /\ (load && ok = true \/ forall x, nth_error (objs w) b = Some (Some x) -> proj x = None)
  | DeletePtr _ | Copy _ | Assign _ _ | Rebin _ _ => False
  end.

(** The call deletes the map of (f, e). *)
Definition deletes (f e : string) (w : world) (o : op) : Prop :=
  match o with
  | DeleteMap f' e' => key f' e' = key f e
  | DeleteObjMap b => exists x, nth_error (objs w) b = Some (Some x) /\ key (expanded x) (ext x) = key f e
  | _ => False
  end.

Section History.
Variable expand : string -> string.
(** [ok] holds of every call of a history. *)
Fixpoint throughout (ok : world -> op -> Prop) (w : world) (ops : list op) : Prop :=
  match ops with
  | [] => True
  | o :: ops => ok w o /\ throughout ok (fst (exec expand w o)) ops
  end.
Definition after (ops : list op) : world := fst (execs expand start ops).
Definition results (ops : list op) : list (outcome (option nat)) := snd (execs expand start ops).
End History.

(** The map at an address, if it has not been freed. *)
Definition map_at (w : world) (p : nat) : option image := match nth_error (maps w) p with Some i => i | None => None end.

(** Names of extensions without a colon. *)
Definition colon_free (e : string) : Prop := ~ In ":"%char (list_ascii_of_string e).
Definition plain_names (w : world) (o : op) : Prop :=
  match o with
  | Wcsmap _ e _ | DeleteMap _ e | NewObj _ e | ReadFile _ _ e _ _ => colon_free e
  | _ => True
  end.

(** The file and extension last given to each object. *)
Definition name_step (l : list (string * string)) (o : op) : list (string * string) :=
  match o with
  | NewObj f e => l ++ [(f, e)]
  | ReadFile b f e _ _ => upd l b (f, e)
  | _ => l
  end.
Definition names (ops : list op) : list (string * string) := fold_left name_step ops [].

(** What a user expects of a source container. *)
From Verif Require Import Base SMap SrcModel.
Local Open Scope Z_scope.

(** A partial map from names to spectral parameters, and the sources in the caller's
    hands. *)
Record astate := mk_a { a_has : Z -> option (list param); a_hand : list (Z * list param) }.
Definition a_init : astate := mk_a (fun _ => None) [].
(** Container operations; the boolean says whether the call throws. *)
Definition astep (s : astate) (o : op) : astate * bool :=
  match o with
  | OpNew n ps => (mk_a (a_has s) (a_hand s ++ [(n, ps)]), false)
  | OpAdd i fromClone =>
      match nth_error (a_hand s) i with
      | None => (s, false)
      | Some (n, ps) =>
          match a_has s n with
          | Some _ => (s, true)
          | None => (mk_a (fun k => if k =? n then Some ps else a_has s k)
                          (if fromClone then a_hand s else drop_nth (a_hand s) i), false)
          end
      end
  | OpDel n =>
      match a_has s n with
      | None => (s, true)
      | Some ps => (mk_a (fun k => if k =? n then None else a_has s k) (a_hand s ++ [(n, ps)]), false)
      end
  | OpDelAll => (mk_a (fun _ => None) (a_hand s), false)
  | _ => (s, false)
  end.
Fixpoint arun (s : astate) (ops : list op) : astate * list bool :=
  match ops with
  | [] => (s, [])
  | o :: ops' => let (s', b) := astep s o in let (s'', bs) := arun s' ops' in (s'', b :: bs)
  end.
Definition container_op (o : op) : bool :=
  match o with OpNew _ _ | OpAdd _ _ | OpDel _ | OpDelAll => true | _ => false end.

(** Identities of all objects in a model, and of everything accounted for. *)
Definition model_ids (m : model) : list nat := flat_map (fun p => s_ids (snd p)) (m_src m).
Definition accounted (w : world) : list nat :=
  model_ids (w_model w) ++ flat_map s_ids (w_caller w) ++ w_freed w.

(** The parameters of the sources, in name order. *)
Definition source_params (m : model) : list param := flat_map (fun p => s_params (snd p)) (m_src m).
(** Everything about a parameter but its value. *)
Definition skeleton (p : param) := (q_name p, q_scale p, q_lo p, q_hi p, q_free p).
Definition in_bounds (p : param) (v : Z) : Prop := q_lo p <= v <= q_hi p.
(** Names, identities and owned objects of the sources of a model. *)
Definition source_list (m : model) := map (fun p => (fst p, s_ids (snd p), map skeleton (s_params (snd p)))) (m_src m).

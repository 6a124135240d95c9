(** What a user of CompositeLikelihood expects, stated on parameters found by component, source and name. *)
From Coq Require Import Reals String.
From Verif Require Import Base DerivSpec CmpModel.
Local Open Scope string_scope.
Local Open Scope list_scope.

(** parameter [q] of source [src] in component number [i] *)
Definition holds (k : composite) (i : nat) (src : string) (q : par) : Prop :=
  exists c n s, nth_error (k_comps k) i = Some (c, n) /\ In (src, s) (c_srcs c) /\ In q (sp_pars s).

(** [src] is the common source of component [i] *)
Definition is_common (k : composite) (i : nat) (src : string) : Prop :=
  exists c, nth_error (k_comps k) i = Some (c, src).

(** Ordinary composites: some component; in each component the sources have different names and the common
    source is there, its parameters have different names, and one of them is the normalisation that the
    composite knows by name. *)
Definition ordinary (k : composite) : Prop :=
  k_comps k <> [] /\
  forall c n, In (c, n) (k_comps k) ->
    NoDup (map fst (c_srcs c)) /\
    exists s, In (n, s) (c_srcs c) /\ NoDup (map p_name (sp_pars s)) /\ sp_norm s = k_norm k /\
      In (k_norm k) (map p_name (sp_pars s)).

(** names of the free parameters of a spectrum other than [norm] *)
Definition free_shape_names (norm : string) (s : spectrum) : list string :=
  map p_name (filter (fun p => p_free p && negb (String.eqb (p_name p) norm))%bool (sp_pars s)).

(** the common sources have the same free shape parameters, in the same order *)
Definition alike (k : composite) : Prop :=
  forall c n s c' n' s', In (c, n) (k_comps k) -> In (n, s) (c_srcs c) ->
    In (c', n') (k_comps k) -> In (n', s') (c_srcs c') ->
    free_shape_names (k_norm k) s = free_shape_names (k_norm k) s'.

(** each shape parameter that is free in some component exists in all of them *)
Definition same_names (k : composite) : Prop :=
  forall c n s c' n' s', In (c, n) (k_comps k) -> In (n, s) (c_srcs c) ->
    In (c', n') (k_comps k) -> In (n', s') (c_srcs c') ->
    map p_name (sp_pars s) = map p_name (sp_pars s').

(** what a component reports is the gradient of its value when its model is up to date *)
Definition honest (c : comp) (v : list R) : Prop :=
  length (c_grad c v v) = length v /\
  forall i d, nth_error (c_grad c v v) i = Some d -> partial_at (fun x => Some (c_fun c x)) v i d.

(** no component uses a model computed for other parameter values *)
Definition up_to_date (k : composite) : Prop :=
  forall c n, In (c, n) (k_comps k) -> c_cached c = true ->
    c_at c = None \/ c_at c = Some (map p_val (concat (map (fun s => sp_pars (snd s)) (c_srcs c)))).

(** the statistic as a function of the vector handed to the optimizer *)
Definition as_function (k : composite) (vals : list R) : option R :=
  match setFreeParamValues vals k with
  | Ok k' => Some (snd (value k'))
  | _ => None
  end.

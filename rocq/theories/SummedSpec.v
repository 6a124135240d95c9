(** What a user expects of a summed likelihood. *)
From Coq Require Import Reals.
From Verif Require Import Base SMap SrcModel SrcSpec TiedModel TiedSpec SummedModel.
Local Open Scope Z_scope.

(** The master with its groups, as a joint likelihood with the single component 0. *)
Definition joint_of (u : summed) (m : model) : comp2 := mk_c2 (fun _ => m) [(0, u_idx u)] (u_tied u) [].
(** Well formed: every component has, position by position, the parameter names of the
    master; no spectrum has two parameters of one name; members of groups exist in the
    master, are in one group only and are free or fixed with it, with its bounds when free. *)
Record sum_ok (u : summed) (m : model) (rest : list model) : Prop := {
  so_comps : u_comps u = m :: rest;
  so_names : forall c, In c (m :: rest) -> map q_name (source_params c) = map q_name (m_par m) /\
               length (m_par c) = length (m_par m) /\
               Forall (fun p => NoDup (map q_name (s_params (snd p)))) (m_src c);
  so_index : forall i, In i (u_idx u) <-> in_some_group (joint_of u m) 0 i;
  so_once : NoDup (flat_map t_mem (u_tied u));
  so_member : forall t c i, In t (u_tied u) -> In (c, i) (t_mem t) -> c = 0 /\
      exists p, nth_error (m_par m) i = Some p /\ q_free p = q_free (t_par t) /\
        (q_free p = true -> q_lo p = q_lo (t_par t) /\ q_hi p = q_hi (t_par t))
}.
(** Derivative of the sum of the components with respect to parameter [i] of the common
    parameter vector. *)
Definition sum_deriv (m : model) (fds : list (list R)) (i : nat) : R :=
  fold_right Rplus 0%R (map (fun fd => nth (length (filter q_free (firstn i (m_par m)))) fd 0%R) fds).

(** What a user expects of tied parameters. *)
From Coq Require Import Reals.
From Verif Require Import Base SMap SrcModel SrcSpec TiedModel AccumProofs.
Local Open Scope Z_scope.

(** A free parameter of the joint likelihood: one parameter of one component, or a group. *)
Inductive entry := Single (c : Z) (i : nat) | Group (g : nat).
Definition slot (k : comp2) (c : Z) (i : nat) : option param := nth_error (m_par (k_heap k c)) i.
Definition group (k : comp2) (g : nat) : option tied := nth_error (k_tied k) g.
Definition in_some_group (k : comp2) (c : Z) (i : nat) : Prop := exists t, In t (k_tied k) /\ In (c, i) (t_mem t).

Definition slot_free (k : comp2) (c : Z) (i : nat) : bool := match slot k c i with Some p => q_free p | None => false end.
Definition group_free (k : comp2) (g : nat) : bool := match group k g with Some t => q_free (t_par t) | None => false end.
Definition tied_at (k : comp2) (c : Z) (i : nat) : bool := existsb (fun t => has_member t c i) (k_tied k).
(** The free parameters in order: component by component (in the order of the component
    map) the free parameters that belong to no group, then the free groups. *)
Definition entries (k : comp2) : list entry :=
  flat_map (fun c => map (Single c) (filter (fun i => slot_free k c i && negb (tied_at k c i))
                                            (seq 0 (length (m_par (k_heap k c)))))) (mkeys (k_comps k)) ++
  map Group (filter (group_free k) (seq 0 (length (k_tied k)))).
Definition entry_param (k : comp2) (e : entry) : option param :=
  match e with Single c i => slot k c i | Group g => option_map t_par (group k g) end.
(** Does the entry stand for parameter [i] of component [c]? *)
Definition stands_for (k : comp2) (e : entry) (c : Z) (i : nat) : Prop :=
  match e with
  | Single c' i' => c' = c /\ i' = i
  | Group g => exists t, group k g = Some t /\ In (c, i) (t_mem t)
  end.

(** The derivative with respect to parameter [i] of component [c], given the list of free
    derivatives each component reports: the free parameters before it count. *)
Definition slot_deriv (k : comp2) (fd : Z -> list R) (c : Z) (i : nat) : R :=
  nth (length (filter q_free (firstn i (m_par (k_heap k c))))) (fd c) 0%R.
Definition entry_deriv (k : comp2) (fd : Z -> list R) (e : entry) : R :=
  match e with
  | Single c i => slot_deriv k fd c i
  | Group g => match group k g with
               | Some t => Rsum (map (fun m => slot_deriv k fd (fst m) (snd m)) (t_mem t))
               | None => 0%R
               end
  end.

(** A component whose parameter vector has, position by position, the names and free flags
    of its sources' parameters, and no spectrum with two parameters of one name. *)
Definition aligned (m : model) : Prop :=
  map (fun p => (q_name p, q_free p)) (m_par m) = map (fun p => (q_name p, q_free p)) (source_params m) /\
  Forall (fun p => NoDup (map q_name (s_params (snd p)))) (m_src m).
(** A well-formed joint likelihood: components aligned; every group has members, which exist,
    belong to one group only and are free or fixed together with it, with its bounds when
    free. *)
Record joint_ok (k : comp2) : Prop := {
  jk_sorted : sorted (k_comps k);
  jk_aligned : forall c, In c (mkeys (k_comps k)) -> aligned (k_heap k c);
  jk_index : forall c tl, In (c, tl) (k_comps k) -> forall i, In i tl <-> in_some_group k c i;
  jk_once : NoDup (flat_map t_mem (k_tied k));
  jk_member : forall t c i, In t (k_tied k) -> In (c, i) (t_mem t) ->
      In c (mkeys (k_comps k)) /\
      exists p, slot k c i = Some p /\ q_free p = q_free (t_par t) /\
        (q_free p = true -> q_lo p = q_lo (t_par t) /\ q_hi p = q_hi (t_par t))
}.

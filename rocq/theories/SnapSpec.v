(** What it means for a source to have changed, independently of the bit masks. *)
From Verif Require Import Base SMap.
From Verif Require SnapModel.
From Coq Require Import Reals Sorted.
Import SnapModel (par, src, p_name, p_val, p_free, p_prior, s_kind, s_norm, s_pars, s_funcs, spec_key).

(** A value has moved by more than one part in 10^5 of the two magnitudes. *)
Definition value_moved (v w : R) : Prop :=
  (1 / 100000 * (Rabs v + Rabs w) < Rabs (v - w))%R.
(** A prior was added, removed, or has other parameter names or moved values. *)
Definition prior_moved (a b : option (Z * list (Z * R))) : Prop :=
  match a, b with
  | None, None => False
  | Some (_, l), Some (_, m) =>
      ~ (map fst l = map fst m /\
         forall i v w, nth_error (map snd l) i = Some v -> nth_error (map snd m) i = Some w ->
                       ~ value_moved v w)
  | _, _ => True
  end.
Definition par_moved (p q : par) : Prop :=
  value_moved (p_val p) (p_val q) \/ p_free p <> p_free q \/ prior_moved (p_prior p) (p_prior q).

(** The spectral parameters other than the normalisation. *)
Definition shape_pars (s : src) : list par :=
  filter (fun p => negb (p_name p =? p_name (s_norm s))%Z) (s_pars s).
(** The functions of the source other than its spectrum, and their parameters. *)
Definition space_funcs (s : src) : list (Z * list par) :=
  filter (fun f => negb (fst f =? spec_key)%Z) (s_funcs s).
Definition space_pars (s : src) : list par := flat_map snd (space_funcs s).

(** Parameter names are distinct. *)
Definition well_named (s : src) : Prop :=
  NoDup (map p_name (s_pars s)) /\ NoDup (map p_name (space_pars s)).

Definition same_names (a b : list par) : Prop :=
  forall n, In n (map p_name a) <-> In n (map p_name b).
(** Two parameters of the same name, one in each list, differ. *)
Definition some_moved (a b : list par) : Prop :=
  exists p q, In p a /\ In q b /\ p_name p = p_name q /\ par_moved p q.

(** The spectral model is of the same type with the same parameter names. *)
Definition same_spectral_type (a b : src) : Prop :=
  s_kind a = s_kind b /\ same_names (shape_pars a) (shape_pars b).
Definition same_spatial_type (a b : src) : Prop :=
  map fst (space_funcs a) = map fst (space_funcs b) /\ same_names (space_pars a) (space_pars b).

(** The source has changed in any way a snapshot looks at. *)
Definition differs (a b : src) : Prop :=
  ~ same_spectral_type a b \/ ~ same_spatial_type a b \/ par_moved (s_norm a) (s_norm b) \/
  some_moved (shape_pars a) (shape_pars b) \/ some_moved (space_pars a) (space_pars b).
(** A model: distinct source names, in order, of sources with distinct parameter names. *)
Definition good_model (m : list (Z * src)) : Prop :=
  StronglySorted Z.lt (map fst m) /\ forall n s, In (n, s) m -> well_named s.

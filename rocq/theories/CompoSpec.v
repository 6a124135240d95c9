(** What a model of sources with their maps has to satisfy, independently of the code that moves them. *)
From Coq Require Import Reals ZArith List.
From Verif Require Import Base SMap CompoModel.
Import ListNotations.
Local Open Scope R_scope.

(** Sum over the members of spectrum times response. *)
Definition total_density (ms : list member) : R := fold_right (fun m a => mb_spec m * mb_resp m + a) 0 ms.

Local Open Scope Z_scope.
Section Spec.
Context {A : Type} (binned single_fixed : bool).

(** Every source is registered under its name; the fixed sources are those that belong to the single fixed map. *)
Record consistent (m : model A) : Prop := {
  co_src : sorted (m_src m);
  co_maps : sorted (m_maps m);
  co_name : forall n s, mfind n (m_src m) = Some s -> s_name s = n;
  co_nodup : NoDup (m_fixed m);
  co_fixed : forall n, In n (m_fixed m) <-> exists s, mfind n (m_src m) = Some s /\ binned && single_fixed && s_fixed s = true }.

(** The source has a map, if the model keeps maps. *)
Definition loaded (m : model A) (n : Z) : Prop := binned = true -> mfind n (m_maps m) <> None.
End Spec.

(** [l'] holds what [l] holds under the names [ns], and nothing else. *)
Definition restricted {V} (ns : list Z) (l l' : smap V) : Prop :=
  forall x, mfind x l' = if in_dec Z.eq_dec x ns then mfind x l else None.
(** [l'] holds what [l] holds under all names but [ns]. *)
Definition without {V} (ns : list Z) (l l' : smap V) : Prop :=
  forall x, mfind x l' = if in_dec Z.eq_dec x ns then None else mfind x l.

(** A member with its parameter [p] set to t, for every t; at [t0] it reports the derivative of its spectrum, and a
    parameter called "Prefactor" multiplies the spectrum. *)
From Coquelicot Require Import Coquelicot.
From Coq Require Import String.
Local Open Scope R_scope.
Definition moves (p : string) (t0 : R) (f : R -> member) : Prop :=
  (forall t, mb_resp (f t) = mb_resp (f t0)) /\
  (exists d, mb_deriv (f t0) p = Some d /\ is_derive (fun t => mb_spec (f t)) t0 d) /\
  (p = "Prefactor"%string -> mb_prefactor (f t0) = Some t0 /\ exists c, forall t, mb_spec (f t) = t * c).

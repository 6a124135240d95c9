(** What gtltsum and gtsrcprob are meant to give. *)
From Coq Require Import Reals List Arith String.
From Verif Require Import Base LtpModel.
Import ListNotations.
Local Open Scope R_scope.

Definition total (l : list R) : R := fold_right Rplus 0 l.
(** Livetime of the direction [i] and the inclination bin [j]. *)
Definition cell (t : lt_table) (i j : nat) : R := nth j (nth i (lt_rows t) []) 0.
(** The largest zenith angle: 180 degrees if the keyword is missing. *)
Definition zen_limit (t : lt_table) (z : R) : Prop := lt_zen t = Some z \/ (lt_zen t = None /\ z = 180).
(** Two tables that can be added: the same directions, the same bins, the same zenith angles. *)
Definition addable (t u : lt_table) : Prop :=
  map (@length R) (lt_rows t) = map (@length R) (lt_rows u) /\ exists z, zen_limit t z /\ zen_limit u z.
Definition compatible (f g : lt_file) : Prop :=
  lf_bounds f = lf_bounds g /\ addable (lf_exp f) (lf_exp g) /\ addable (lf_wexp f) (lf_wexp g).
(** [s] is the sum of the tables [ts]: livetimes add up, times are the first start and the last stop. *)
Definition is_sum (ts : list lt_table) (s : lt_table) : Prop :=
  (forall t, In t ts -> addable t s) /\
  (forall i j, cell s i j = total (map (fun t => cell t i j) ts)) /\
  (In (lt_start s) (map lt_start ts) /\ forall t, In t ts -> lt_start s <= lt_start t) /\
  (In (lt_stop s) (map lt_stop ts) /\ forall t, In t ts -> lt_stop t <= lt_stop s).

(** The sum of the densities of all sources of a model for an event. *)
Definition all_sources {E} (model : list (string * (E -> R))) (e : E) : R := total (map (fun s => snd s e) model).
(** The column [c] of a row holds [x] and nothing else. *)
Definition holds (row : list (string * R)) (c : string) (x : R) : Prop := forall y, In (c, y) row <-> y = x.

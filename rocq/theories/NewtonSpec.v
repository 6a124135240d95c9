(** Vocabulary for the normalisation fit. *)
From Coq Require Import Reals.
From Verif Require Import Base PoissonSpec.
Local Open Scope R_scope.

(** Bins [first, last) of vectors of length [N]; [last = 0] means up to the end. *)
Definition selected (first last N b : nat) : Prop :=
  (first <= b < (if (last =? 0)%nat then N else last))%nat.

(** All vectors have one length and the selected range is inside it. *)
Record shaped (data fixed model : list R) (templates : list (list R)) (weights : option (list R))
    (first last : nat) : Prop := mk_shaped {
  sh_fixed : length fixed = length data;
  sh_model : length model = length data;
  sh_templates : Forall (fun t => length t = length data) templates;
  sh_weights : forall w, weights = Some w -> length w = length data;
  sh_range : (first <= (if (last =? 0)%nat then length data else last) <= length data)%nat }.

Definition weight_of (weights : option (list R)) (b : nat) : R :=
  match weights with Some w => nth b w 0 | None => 1 end.

(** A bin with no data at all, or whose weighted data are above the 1e-9 threshold,
    or which has no weight. *)
Definition clear_bin (d w : R) : Prop := (d <= 0 /\ ~ has_data (w * d)) \/ (0 < d /\ has_data (w * d)) \/ w = 0.

(** Element [(i, j)] of a symmetric matrix given by the rows of its upper triangle. *)
Definition upper (h : list (list R)) (i j : nat) : R :=
  nth (Nat.max i j - Nat.min i j) (nth (Nat.min i j) h []) 0.

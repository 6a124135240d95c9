(** Poisson log-likelihood of binned data, and the layer structure of the data. *)
From Coq Require Import Reals.
From Verif Require Import Base.
Local Open Scope R_scope.

(** A bin counts as having data when its content exceeds 1e-9. *)
Definition has_data (d : R) : Prop := d > / 10 ^ 9.
(** A model bin cannot explain the data: negative, or zero where there is data. *)
Definition impossible (d m : R) : Prop := m < 0 \/ (has_data d /\ m <= 0).

(** [poisson data model v]: [v] is the sum over bins of [d ln m - m], the
    logarithm being taken only where there is data. *)
Inductive poisson : list R -> list R -> R -> Prop :=
| poisson_nil : poisson [] [] 0
| poisson_data d m ds ms v : has_data d -> poisson ds ms v -> poisson (d :: ds) (m :: ms) (d * ln m - m + v)
| poisson_empty d m ds ms v : ~ has_data d -> poisson ds ms v -> poisson (d :: ds) (m :: ms) (- m + v).

(** Weighted: data and model of each bin are scaled by the bin's weight. *)
Inductive poissonW : list R -> list R -> list R -> R -> Prop :=
| poissonW_nil : poissonW [] [] [] 0
| poissonW_data d m w ds ms ws v : has_data (w * d) -> poissonW ds ms ws v ->
    poissonW (d :: ds) (m :: ms) (w :: ws) (w * (d * ln m - m) + v)
| poissonW_empty d m w ds ms ws v : ~ has_data (w * d) -> poissonW ds ms ws v ->
    poissonW (d :: ds) (m :: ms) (w :: ws) (w * - m + v).

(** Total model in bin [b]: fixed part plus scaled templates. *)
Fixpoint total_model (fixed : list R) (templates : list (list R)) (scales : list R) (b : nat) : R :=
  match templates, scales with
  | t :: ts, s :: ss => s * nth b t 0 + total_model fixed ts ss b
  | _, _ => nth b fixed 0
  end.

(** Elements flagged true, in order. *)
Fixpoint flagged {A} (free : list bool) (l : list A) : list A :=
  match free, l with
  | f :: fs, x :: l' => (if f then [x] else []) ++ flagged fs l'
  | _, _ => []
  end.

(** Layers [a, b) of a layered vector. *)
Definition layers {A} (l : list (list A)) (a b : nat) : list A := concat (firstn (b - a) (skipn a l)).

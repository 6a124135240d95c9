(** What merging the components of a summed analysis should mean. *)
From Verif Require Import Base.
From Coq Require Import Reals.
Open Scope R_scope.

(** A component: its energy bin edges, pixels per energy layer, and one value for
    each pixel of each layer, layer by layer. *)
Record component {A} := { c_edges : list R; c_pix : nat; c_data : list A }.
Arguments component A : clear implicits.

(** Edges are positive, increase by at least the tolerance; there is one value per
    bin and pixel. *)
Definition grid_ok (tol : R) (g : list R) : Prop :=
  g <> [] /\ (forall x, In x g -> 0 < x < 10 ^ 32) /\
  (forall i k x y, (i < k)%nat -> nth_error g i = Some x -> nth_error g k = Some y -> x + tol <= y).
Definition comp_ok {A} (tol : R) (c : component A) : Prop :=
  grid_ok tol (c_edges c) /\ length (c_data c) = (c_pix c * (length (c_edges c) - 1))%nat.

(** The edge [x] is merged into the edge [m]. *)
Definition merged_into (tol m x : R) : Prop := m <= x < m + tol.

(** The values of energy bin [b] of a component. *)
Definition bin_values {A} (c : component A) (b : nat) : list A := firstn (c_pix c) (skipn (b * c_pix c) (c_data c)).
(** The values of the bins that begin at the merged edge [m] (there is at most one). *)
Definition starting_at {A} (tol m : R) (c : component A) : list A :=
  concat (map (fun b => match nth_error (c_edges c) b with
                        | Some x => if Rle_dec m x then (if Rlt_dec x (m + tol) then bin_values c b else []) else []
                        | None => []
                        end) (seq 0 (length (c_edges c) - 1))).
(** The layer at the merged edge [m]: the components one after the other. *)
Definition layer {A} (tol m : R) (cs : list (component A)) : list A := concat (map (starting_at tol m) cs).

(** Edges of the components are equal or further apart than the tolerance. *)
Definition aligned (tol : R) (gs : list (list R)) : Prop :=
  forall g g' x y, In g gs -> In g' gs -> In x g -> In y g' -> x = y \/ x + tol <= y \/ y + tol <= x.
(** No edge of a component lies inside a bin of another one. *)
Definition no_split_bins (gs : list (list R)) : Prop :=
  forall g g' x b lo hi, In g gs -> In g' gs -> In x g -> nth_error g' b = Some lo -> nth_error g' (S b) = Some hi ->
    ~ (lo < x < hi).

(** What counts maps and weights maps are about, independently of the code. *)
From Coq Require Import Reals String Ascii List Bool.
From Verif Require Import DexpSpec.
Import ListNotations.
Local Open Scope R_scope.

(** Width and geometric centre of energy bin k. *)
Definition width (es : list R) (k : nat) : R := nth (S k) es 0 - nth k es 0.
Definition centre (es : list R) (k : nat) : R := sqrt (nth k es 0 * nth (S k) es 0).

(** Sum of a list. *)
Definition total (l : list R) : R := fold_right Rplus 0 l.

(** m is the smallest number of the list. *)
Definition smallest (l : list R) (m : R) : Prop := In m l /\ forall x, In x l -> m <= x.

(** The values of several maps in one cell. *)
Definition in_cell (maps : list (list R)) (c : nat) : list R := map (fun v => nth c v 0) maps.

(** All maps have n cells. *)
Definition sized (n : nat) (maps : list (list R)) : Prop := forall v, In v maps -> length v = n.

(** The weight of the combination of several backgrounds, where m is the smallest: (1 + e m) / (1 + e m sum (m/b)^2). *)
Definition alpha (e m : R) (bs : list R) : R :=
  (1 + e * m) / (1 + e * m * total (map (fun b => (m / b) ^ 2) bs)).

(** The effective background of pixel p in energy bin k': what the convolved map c holds in the bins k at or above k',
    up to the factor f in energy, as counts under the peak of the PSF. *)
Definition effective (es : list R) (peak : R -> R) (f : R) (n : nat) (c : nat -> nat -> R) (k' p : nat) : R :=
  sum n (fun k => if Nat.leb k' k then
                    if Rle_dec (centre es k) (f * centre es k') then c k p * width es k / peak (centre es k) else 0
                  else 0).

(** Cell (i, j, k) of a map with nx times ny pixels. *)
Definition cell_index (nx ny i j k : nat) : nat := ((k * ny + j) * nx + i)%nat.

(** a <= x < b. *)
Definition between (a x b : R) : bool := if Rle_dec a x then if Rlt_dec x b then true else false else false.

(** Place x lies in pixel i of an axis: at most half a pixel from i + 1. *)
Definition in_pixel (x : R) (i : nat) : bool := between (INR i + 1 / 2) x (INR i + 3 / 2).
(** The energy lies in bin k. *)
Definition in_bin (es : list R) (x : R) (k : nat) : bool := between (nth k es 0) x (nth (S k) es 0).

(** Plane k of the convolved map has ny rows of nx pixels. *)
Definition planes (n nx ny : nat) (conv : list (list (list R))) : Prop :=
  length conv = n /\ forall k, (k < n)%nat -> length (nth k conv []) = ny /\ forall r, In r (nth k conv []) -> length r = nx.

(** The places on the border of the grid of pixel corners. *)
Definition border (nx ny : nat) (p : R * R) : Prop :=
  exists i j, (i <= nx)%nat /\ (j <= ny)%nat /\ p = (INR i + 1 / 2, INR j + 1 / 2) /\
    (i = 0%nat \/ i = nx \/ j = 0%nat \/ j = ny).

(** A word without hyphens. *)
Fixpoint word (s : string) : Prop := match s with EmptyString => True | String c s' => c <> "-"%char /\ word s' end.


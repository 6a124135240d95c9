(** What a user expects of the counts cache. *)
From Coq Require Import Reals.
From Verif Require Import Base AccumModel AccumProofs CountsModel.
Local Open Scope R_scope.

(** The counts and weights a program has set last; a counts vector of the wrong size is
    refused. *)
Record current := mk_cur { cur_counts : list R; cur_weights : option (list R) }.
Definition cur_step (W : nat -> list R) (c : current) (o : cc_op) : current :=
  match o with
  | CcCounts x => if (length x =? length (cur_counts c))%nat then mk_cur x (cur_weights c) else c
  | CcWeights w => mk_cur (cur_counts c) (option_map W w)
  | CcDropOriginal => c
  end.
Definition cur_run (W : nat -> list R) := fold_left (cur_step W).

(** Counts in pixel [p] of plane [k], and the same weighted: zero unless both the counts and
    the weight are positive. *)
Definition count_at (s : shape) (c : current) (k p : nat) : R := nth (k * npix s + p) (cur_counts c) 0.
Definition weighted_at (s : shape) (c : current) (k p : nat) : R :=
  match cur_weights c with
  | None => count_at s c k p
  | Some w => let x := nth (k * npix s + p) w 0 in
              if Rltb 0 x && Rltb 0 (count_at s c k p) then count_at s c k p * x else 0
  end.
(** The pixels of plane [k] with positive (weighted) counts, in order. *)
Definition filled_in_plane (s : shape) (c : current) (k : nat) : list nat :=
  filter (fun p => Rltb 0 (weighted_at s c k p)) (seq 0 (npix s)).
(** The slice of the filled-pixel list that the loops of the likelihood walk for plane [k]. *)
Definition walked (cc : ccache) (k : nat) : list nat :=
  let a := nth k (cc_first cc) 0%nat in let b := nth (S k) (cc_first cc) 0%nat in
  firstn (b - a) (skipn a (cc_filled cc)).
Definition plane_sum (s : shape) (f : nat -> R) : R := Rsum (map f (seq 0 (npix s))).
(** A call sequence without setWeightsMap(0) after deleteOriginalWeightMap (unless another map
    has been set in between). *)
Fixpoint fine (dropped : bool) (ops : list cc_op) : bool :=
  match ops with
  | [] => true
  | CcDropOriginal :: ops' => fine true ops'
  | CcWeights None :: ops' => negb dropped && fine false ops'
  | CcWeights (Some _) :: ops' => fine false ops'
  | CcCounts _ :: ops' => fine dropped ops'
  end.
(** The filled-pixel index and the spectra are those of the current counts and weights. *)
Definition index_of_current (s : shape) (cc : ccache) (c : current) : Prop :=
  length (cc_first cc) = S (s_ne s) /\ nth 0 (cc_first cc) 0%nat = 0%nat /\
  nth (s_ne s) (cc_first cc) 0%nat = length (cc_filled cc) /\
  (forall k, (k < s_ne s)%nat -> (nth k (cc_first cc) 0 <= nth (S k) (cc_first cc) 0 <= length (cc_filled cc))%nat) /\
  (forall k, (k < s_ne s)%nat -> walked cc k = filled_in_plane s c k).
Definition spectra_of_current (s : shape) (cc : ccache) (c : current) : Prop :=
  cc_spec cc = map (fun k => plane_sum s (count_at s c k)) (seq 0 (s_ne s)) /\
  cc_spec_wt cc = map (fun k => plane_sum s (weighted_at s c k)) (seq 0 (s_ne s)).

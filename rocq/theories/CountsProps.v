(** Properties C21 and C22: the filled-pixel index and the counts spectrum. *)
From Coq Require Import Reals Lra.
From Verif Require Import Base AccumModel AccumProofs CountsModel CountsSpec CountsProofs.

Section S.
Variables (W : nat -> list R) (s : shape).
Lemma reachable data w ops :
  length data = s_ne s * npix s -> (forall n, length (W n) = s_ne s * npix s) -> fine false ops = true ->
  exists cc0 cc, cc_init W s data w = Ok cc0 /\ cc_run W s cc0 ops = Ok cc /\
    coherent s cc (cur_run W ops (mk_cur data (option_map W w))).
Proof.
  intros HD HW F. assert (forall w', option_map W w = Some w' -> length w' = s_ne s * npix s) as HWw.
  { destruct w; simpl; intros w' E; [injection E as <-; auto|discriminate]. }
  unfold cc_init. destruct (refresh_ok s data w (option_map W w) HD HWw) as (cc0 & E & Eo & Hc).
  destruct (run_ok s W HW ops cc0 (mk_cur data (option_map W w)) false) as (cc & Er & Hr); auto; simpl.
  - now rewrite Eo.
  - exists cc0, cc. auto.
Qed.
Lemma map_from {A} (f : nat -> A) a m : map (fun p => f (a + p)) (seq 0 m) = map f (seq (0 + a) m).
Proof. rewrite <- (map_map (fun p => a + p) f). f_equal. generalize 0. induction m as [|m IH]; intros b; simpl; auto. f_equal; [lia|]. rewrite IH. f_equal; lia. Qed.
Lemma total_part c : Rsum (map (fun k => plane_sum s (count_at s c k)) (seq 0 (s_ne s))) =
  Rsum (map (fun i => nth i (cur_counts c) 0%R) (seq 0 (s_ne s * npix s))).
Proof.
  unfold plane_sum, count_at. induction (s_ne s) as [|n IH]; [reflexivity|].
  rewrite seq_S, map_app, Rsum_app, IH. replace (S n * npix s) with (n * npix s + npix s) by lia.
  rewrite seq_app, map_app, Rsum_app. f_equal.
  transitivity (Rsum (map (fun p => nth (n * npix s + p) (cur_counts c) 0%R) (seq 0 (npix s)))); [unfold Rsum at 1; simpl; apply Rplus_0_r|].
  f_equal. apply (map_from (fun i => nth i (cur_counts c) 0%R)).
Qed.
Lemma nth_all (l : list R) : map (fun i => nth i l 0%R) (seq 0 (length l)) = l.
Proof. induction l as [|x l IH]; simpl; auto. f_equal. rewrite <- seq_shift, map_map. exact IH. Qed.
Lemma cur_len ops : forall c, length (cur_counts (cur_run W ops c)) = length (cur_counts c).
Proof.
  induction ops as [|o ops IH]; intros c; simpl; auto. unfold cur_run in *. simpl. rewrite IH. destruct o; simpl; auto.
  destruct (Nat.eqb_spec (length counts) (length (cur_counts c))); auto.
Qed.
End S.

(** However the map was made and whichever counts and weights have been set since, walking a
    plane visits exactly its pixels with positive weighted counts, once and in order, and the
    walk stays inside the list. *)
Theorem C21_filled_pixels_partial :
  forall (W : nat -> list R) (s : shape) (data : list R) (w : option nat) (ops : list cc_op),
    length data = s_ne s * npix s -> (forall n, length (W n) = s_ne s * npix s) ->
    fine false ops = true ->
    exists cc0 cc, cc_init W s data w = Ok cc0 /\ cc_run W s cc0 ops = Ok cc /\
      index_of_current s cc (cur_run W ops (mk_cur data (option_map W w))).
Proof.
  intros W s data w ops HD HW F. destruct (reachable W s data w ops HD HW F) as (cc0 & cc & E1 & E2 & Hc).
  exists cc0, cc. split; auto. split; auto. unfold coherent in Hc. unfold index_of_current. tauto.
Qed.
Print Assumptions C21_filled_pixels_partial.

(** The cached spectra are the per-plane totals of the current map, and add up to its total. *)
Theorem C22_counts_spectrum_partial :
  forall (W : nat -> list R) (s : shape) (data : list R) (w : option nat) (ops : list cc_op),
    length data = s_ne s * npix s -> (forall n, length (W n) = s_ne s * npix s) ->
    fine false ops = true ->
    let c := cur_run W ops (mk_cur data (option_map W w)) in
    exists cc0 cc, cc_init W s data w = Ok cc0 /\ cc_run W s cc0 ops = Ok cc /\
      spectra_of_current s cc c /\ Rsum (cc_spec cc) = Rsum (cur_counts c).
Proof.
  intros W s data w ops HD HW F c. destruct (reachable W s data w ops HD HW F) as (cc0 & cc & E1 & E2 & Hc).
  fold c in Hc. exists cc0, cc. split; auto. split; auto. unfold coherent in Hc. destruct Hc as (_ & _ & _ & _ & _ & _ & _ & H1 & H2).
  split; [split; auto|]. rewrite H1, total_part. transitivity (Rsum (map (fun i => nth i (cur_counts c) 0%R) (seq 0 (length (cur_counts c))))); [|now rewrite nth_all].
  unfold c. rewrite cur_len. simpl. now rewrite HD.
Qed.
Print Assumptions C22_counts_spectrum_partial.

(** A counts vector of the wrong size is refused and changes nothing. *)
Theorem C22_wrong_size_is_refused :
  forall W s cc x, length x <> length (cc_data cc) -> cc_step W s cc (CcCounts x) = Throw.
Proof. intros W s cc x H. unfold cc_step. destruct (Nat.eqb_spec (length x) (length (cc_data cc))); [contradiction|reflexivity]. Qed.
Print Assumptions C22_wrong_size_is_refused.

Lemma Rltb_t a b : (a < b)%R -> Rltb a b = true. Proof. destruct (Rltb_spec a b); intros; auto; lra. Qed.
Lemma Rltb_f a b : (b <= a)%R -> Rltb a b = false. Proof. destruct (Rltb_spec a b); intros; auto; lra. Qed.
Ltac rb := repeat (match goal with |- context [Rltb ?a ?b] => (rewrite (Rltb_t a b) by lra) || (rewrite (Rltb_f a b) by lra) end; simpl).
(** Two planes of two pixels; the weights hide one pixel; new counts then empty the first
    plane. *)
Definition s2 := mk_shape false 2 1 2.
Definition W2 (n : nat) : list R := match n with O => [1; 0; 2; 1]%R | _ => [1; 1; 1; 1]%R end.
Example C21_case :
  (forall n, length (W2 n) = s_ne s2 * npix s2) /\
  fine false [CcWeights (Some 0); CcCounts [0; 3; 0; 5]%R; CcDropOriginal; CcCounts [1]%R] = true /\
  filled_in_plane s2 (mk_cur [4; 3; 0; 5]%R (Some (W2 0))) 0 = [0] /\
  filled_in_plane s2 (cur_run W2 [CcWeights (Some 0); CcCounts [0; 3; 0; 5]%R; CcDropOriginal; CcCounts [1]%R] (mk_cur [4; 3; 0; 5]%R None)) 0 = [] /\
  filled_in_plane s2 (cur_run W2 [CcWeights (Some 0); CcCounts [0; 3; 0; 5]%R; CcDropOriginal; CcCounts [1]%R] (mk_cur [4; 3; 0; 5]%R None)) 1 = [1].
Proof.
  split; [destruct n; reflexivity|]. split; [reflexivity|].
  split; [|split]; unfold filled_in_plane, weighted_at, count_at; simpl; rb; reflexivity.
Qed.
Example C22_case :
  plane_sum s2 (weighted_at s2 (mk_cur [4; 3; 0; 5]%R (Some (W2 0))) 0) = 4%R /\
  plane_sum s2 (count_at s2 (mk_cur [4; 3; 0; 5]%R (Some (W2 0))) 0) = 7%R.
Proof. split; unfold plane_sum, weighted_at, count_at; simpl; rb; lra. Qed.

(** What is missing: deleteOriginalWeightMap() sets the original pointer to null, after which
    setWeightsMap(0) is taken for a repetition of the current map and does nothing, so the
    weights, the filled pixels and the weighted spectrum stay. *)
Theorem C21_cannot_remove_weights_refuted :
  forall W s data n cc0 cc, cc_init W s data (Some n) = Ok cc0 ->
    cc_run W s cc0 [CcDropOriginal; CcWeights None] = Ok cc ->
    cc_wmap cc = Some (W n) /\ cc_filled cc = cc_filled cc0 /\ cc_first cc = cc_first cc0 /\ cc_spec_wt cc = cc_spec_wt cc0.
Proof.
  intros W s data n cc0 cc H1 H2. simpl in H2. injection H2 as <-. simpl. split; auto.
  unfold cc_init, refresh in H1. cbn [option_map] in H1.
  destruct (fillWeightedCounts s data (Some (W n))) as [wd| |]; try discriminate. cbn [obind] in H1.
  destruct (get_data data wd (has_w wd)) as [d| |]; try discriminate. cbn [obind] in H1.
  destruct (identifyFilledPixels s d) as [ff| |]; try discriminate. cbn [obind] in H1.
  destruct (computeCountsSpectrum s data d) as [sp| |]; try discriminate. cbn [obind] in H1. injection H1 as <-. reflexivity.
Qed.
Print Assumptions C21_cannot_remove_weights_refuted.
Example C21_cannot_remove_weights_case :
  exists cc0 cc, cc_init W2 s2 [4; 3; 0; 5]%R (Some 0) = Ok cc0 /\ cc_run W2 s2 cc0 [CcDropOriginal; CcWeights None] = Ok cc /\
    walked cc 0 = [0] /\ filled_in_plane s2 (cur_run W2 [CcDropOriginal; CcWeights None] (mk_cur [4; 3; 0; 5]%R (Some (W2 0)))) 0 = [0; 1].
Proof.
  destruct (reachable W2 s2 [4; 3; 0; 5]%R (Some 0) []) as (cc0 & cc & E1 & E2 & Hc); auto; [destruct n; reflexivity|].
  simpl in E2. injection E2 as <-. exists cc0.
  eexists. split; [auto|]. split; [reflexivity|]. unfold coherent in Hc. destruct Hc as (_ & _ & _ & _ & _ & _ & H & _).
  specialize (H 0 ltac:(simpl; lia)). unfold walked in *. simpl in *. rewrite H.
  split; unfold filled_in_plane, weighted_at, count_at; simpl; rb; reflexivity.
Qed.

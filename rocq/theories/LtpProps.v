(** C85/C185: sums of livetime cubes, probabilities of events to come from sources, response functions of events. *)
From Coq Require Import Reals Lra List Bool Arith NArith String Lia Permutation.
From Verif Require Import Base AccumModel AccumProofs EvtModel CutModel CutProps LtpModel LtpSpec LtpProofs.
Import ListNotations.
Local Open Scope string_scope.
Local Open Scope list_scope.
Local Open Scope R_scope.

(** ** C85: livetime cubes *)
(** Files are added exactly if all of them agree with the first, and the output may be written; an exception otherwise. *)
Theorem C85_ltsum_accepts clobber f0 l old :
  (snd (gtltsum clobber (f0 :: l) old) = Ok tt <-> (clobber = true \/ old = None) /\ forall f, In f l -> compatible f0 f) /\
  (snd (gtltsum clobber (f0 :: l) old) = Ok tt \/ snd (gtltsum clobber (f0 :: l) old) = Throw).
Proof.
  destruct (gtltsum_inv clobber f0 l old) as [(out & E & W & C & _)|[E H]].
  - rewrite E. cbn [snd]. split; [split; auto|auto].
  - rewrite E. split; [|auto]. split; [discriminate|]. intros [W C]. exfalso. destruct H as [H|(f & Hf & Nf)]; [exact (H W)|exact (Nf (C f Hf))].
Qed.
Print Assumptions C85_ltsum_accepts.
(** Files accepted in one order are accepted in every order: agreeing is an equivalence. *)
Theorem C85_ltsum_compatible : (forall f, compatible f f) /\ (forall f g, compatible f g -> compatible g f) /\ (forall f g h, compatible f g -> compatible g h -> compatible f h).
Proof. split; [exact compatible_refl|split; [exact compatible_sym|exact compatible_trans]]. Qed.
Print Assumptions C85_ltsum_compatible.

(** The livetimes of the output are the sums of those of the files, its times the first start and the last stop. *)
Theorem C85_ltsum_value clobber fs old o : gtltsum clobber fs old = (o, Ok tt) ->
  exists out, o = Some out /\ (forall f, In f fs -> lf_bounds out = lf_bounds f) /\ is_sum (map lf_exp fs) (lf_exp out) /\ is_sum (map lf_wexp fs) (lf_wexp out).
Proof.
  destruct fs as [|f0 l]; [intros H; unfold gtltsum in H; cbn in H; discriminate H|]. intros H.
  destruct (gtltsum_inv clobber f0 l old) as [(out & E & _ & C & B & S1 & S2)|[E _]]; [|rewrite H in E; discriminate E].
  rewrite H in E. injection E as ->. exists out. split; [reflexivity|]. split; [|auto]. intros f [<-|Hf]; [exact B|]. rewrite B. apply C. exact Hf.
Qed.
Print Assumptions C85_ltsum_value.
Definition cube (a b c start stop : R) (z : option R) : lt_file := mk_lf [(0, 1); (-1, 0)] (mk_lt [[a; b]; [c; 0]] start stop z) (mk_lt [[a / 2; b / 2]; [c / 2; 0]] start stop z).
Example C85_ltsum_case : exists out, gtltsum true [cube 1 2 3 10 20 None; cube 10 20 30 5 9 (Some 180); cube 7 7 7 30 40 None] None = (Some out, Ok tt) /\
  cell (lf_exp out) 0 1 = 29 /\ cell (lf_exp out) 1 0 = 40 /\ lt_start (lf_exp out) = 5 /\ lt_stop (lf_exp out) = 40.
Proof.
  set (fs := [_; _; _]). destruct (gtltsum_inv true (cube 1 2 3 10 20 None) [cube 10 20 30 5 9 (Some 180); cube 7 7 7 30 40 None] None) as [(out & E & _ & _ & _ & S & _)|[_ [H|(f & Hf & Nf)]]].
  - exists out. split; [exact E|]. destruct S as (_ & S & (T1 & T2) & (U1 & U2)). cbn [map lf_exp cube lt_start lt_stop] in *. split; [|split; [|split]].
    + rewrite S. unfold total, cell. cbn. lra.
    + rewrite S. unfold total, cell. cbn. lra.
    + pose proof (T2 _ (or_introl eq_refl)) as A. pose proof (T2 _ (or_intror (or_introl eq_refl))) as B. cbn [lt_start] in *. cbn [map In lt_start] in T1. destruct T1 as [T1|[T1|[T1|[]]]]; lra.
    + pose proof (U2 _ (or_introl eq_refl)) as A. pose proof (U2 _ (or_intror (or_intror (or_introl eq_refl)))) as B. cbn [lt_stop] in *. cbn [map In lt_stop] in U1. destruct U1 as [U1|[U1|[U1|[]]]]; lra.
  - exfalso. apply H. left. reflexivity.
  - exfalso. apply Nf. destruct Hf as [<-|[<-|[]]]; (split; [reflexivity|split; (split; [reflexivity|exists 180; split; [right; split; reflexivity|]])]); first [left; reflexivity|right; split; reflexivity].
Qed.

(** The order of the files does not matter (C85_ltsum_case has files that meet the hypothesis). *)
Theorem C85_ltsum_order clobber fs fs' old a : Permutation fs fs' -> gtltsum clobber fs old = (Some a, Ok tt) ->
  exists b, gtltsum clobber fs' old = (Some b, Ok tt) /\ lf_bounds a = lf_bounds b /\
  lt_rows (lf_exp a) = lt_rows (lf_exp b) /\ lt_start (lf_exp a) = lt_start (lf_exp b) /\ lt_stop (lf_exp a) = lt_stop (lf_exp b) /\
  lt_rows (lf_wexp a) = lt_rows (lf_wexp b) /\ lt_start (lf_wexp a) = lt_start (lf_wexp b) /\ lt_stop (lf_wexp a) = lt_stop (lf_wexp b).
Proof.
  intros P H. destruct fs as [|f0 l]; [unfold gtltsum in H; cbn in H; discriminate H|].
  destruct fs' as [|g0 l']; [apply Permutation_sym, Permutation_nil in P; discriminate P|].
  destruct (gtltsum_inv clobber f0 l old) as [(out & E & W & C & B & S1 & S2)|[E _]]; [|rewrite H in E; discriminate E].
  rewrite H in E. injection E as ->.
  assert (C' : forall f, In f (f0 :: l) -> compatible f0 f) by (intros f [<-|Hf]; [apply compatible_refl|apply C; exact Hf]).
  assert (G : forall f, In f (g0 :: l') -> compatible f0 f) by (intros f Hf; apply C'; apply (Permutation_in f (Permutation_sym P) Hf)).
  destruct (gtltsum_inv clobber g0 l' old) as [(b & E & _ & _ & B' & T1 & T2)|[_ [N|(f & Hf & Nf)]]].
  - exists b. split; [exact E|]. split; [rewrite B, B'; apply (G g0 (or_introl eq_refl))|].
    assert (K1 : map lf_exp (f0 :: l) <> []) by discriminate. assert (K2 : map lf_wexp (f0 :: l) <> []) by discriminate.
    destruct (is_sum_unique _ _ _ _ K1 (Permutation_map lf_exp P) S1 T1) as (A1 & A2 & A3).
    destruct (is_sum_unique _ _ _ _ K2 (Permutation_map lf_wexp P) S2 T2) as (A4 & A5 & A6). repeat split; assumption.
  - contradiction.
  - exfalso. apply Nf. apply compatible_trans with f0; [apply compatible_sym; apply G; left; reflexivity|apply G; right; exact Hf].
Qed.
Print Assumptions C85_ltsum_order.

(** A sum can be extended: adding files to an earlier output is the same as adding all of them at once
    (C85_ltsum_case has an output that meets the hypothesis). *)
Theorem C85_ltsum_incremental clobber fs gs old old' out : gtltsum clobber fs old = (Some out, Ok tt) ->
  snd (gtltsum clobber (out :: gs) old') = snd (gtltsum clobber (fs ++ gs) old') /\
  (snd (gtltsum clobber (out :: gs) old') = Ok tt -> fst (gtltsum clobber (out :: gs) old') = fst (gtltsum clobber (fs ++ gs) old')).
Proof.
  destruct fs as [|f0 l]; [intros H; unfold gtltsum in H; cbn in H; discriminate H|]. intros H.
  destruct (gtltsum_chain clobber f0 l gs old old' out H) as [A B]. split; [exact A|]. intros K. rewrite (B K). reflexivity.
Qed.
Print Assumptions C85_ltsum_incremental.

(** Files of other inclination bins are refused before the output is touched. *)
Theorem C85_ltsum_other_bins clobber f0 l old f : In f l -> lf_bounds f <> lf_bounds f0 -> gtltsum clobber (f0 :: l) old = (old, Throw).
Proof.
  intros Hf Nf. unfold gtltsum. destruct (check_bounds_inv f0 l) as [[_ B]|[-> _]]; [|reflexivity]. exfalso. apply Nf. symmetry. apply B. exact Hf.
Qed.
Print Assumptions C85_ltsum_other_bins.
Example C85_ltsum_other_bins_case : lf_bounds (mk_lf [(0, 1)] (mk_lt [] 0 0 None) (mk_lt [] 0 0 None)) <> lf_bounds (cube 1 1 1 0 1 None).
Proof. cbn. discriminate. Qed.

(** ** C85: probabilities *)
Lemma lower_inj l : NoDup (map toLower l) -> forall m n, In m l -> In n l -> toLower m = toLower n -> m = n.
Proof.
  induction l as [|a l IH]; intros ND m n Hm Hn Q; [destruct Hm|]. cbn [map] in ND. inversion ND as [|? ? N1 N2]; subst.
  destruct Hm as [<-|Hm], Hn as [<-|Hn]; [reflexivity|exfalso; apply N1; rewrite Q; apply in_map; exact Hn|exfalso; apply N1; rewrite <- Q; apply in_map; exact Hm|apply IH; assumption].
Qed.
(** If the region of interest holds all events: every listed source's column is the part of its density in the sum over all
    sources of the model; other columns are as before. *)
Theorem C85_prob_value (E : Type) accept (model : list (string * (E -> R))) columns lf rows out :
  NoDup (map fst model) -> (forall r, In r rows -> accept (snd r) = true) -> gtsrcprob E accept model columns lf rows = Ok out ->
  length out = length rows /\
  forall j cols e row, nth_error rows j = Some (cols, e) -> nth_error out j = Some row ->
  let listed := match lf with None => map fst model | Some l => l end in
  (forall n f, In (n, f) model -> In n listed -> (forall m, In m listed -> toLower m = toLower n -> m = n) -> all_sources model e <> 0 /\ holds row (toLower n) (f e / all_sources model e)) /\
  (forall c x, ~ In c (map toLower listed) -> In (c, x) row <-> In (c, x) cols).
Proof.
  intros ND Acc H. destruct (gtsrcprob_rows accept model columns lf rows out H) as (added & Ad & L & K). split; [exact L|].
  intros j cols e row Hr Hrow listed. specialize (K j (cols, e) row Hr Hrow). cbn [fst] in K. rewrite (read_all accept rows Acc) in K.
  assert (He : nth_error (map snd rows) j = Some e) by (rewrite nth_error_map, Hr; reflexivity).
  change (source_list E model lf) with listed in *. split.
  - intros n f Hm Hl U. destruct (write_row_inv model listed (map snd rows) j (cols ++ map (fun c => (c, 0)) added) row e) as [Z S]; [intros ->; destruct Hl|intros ->; destruct Hm|exact He|exact K|].
    split; [exact Z|]. pose proof (sets_value _ listed _ row n S Hl U) as V. cbv beta in V. rewrite (density_eq model e n f ND Hm) in V. exact V.
  - intros c x Nc. pose proof (append_inv columns listed [] added (fun _ _ => or_intror I) Ad c) as A.
    assert (Na : ~ In c added) by (rewrite A; cbn [In]; tauto).
    assert (In (c, x) row <-> In (c, x) (cols ++ map (fun c => (c, 0)) added)) as ->.
    { unfold write_row in K. cbn [fst snd] in K. destruct (match model with [] => Ok [] | _ => _ end) as [ds| |]; cbn [obind] in K; try discriminate.
      cbv zeta in K. destruct (Reqb (fold_left (fun t p => t + snd p) ds 0) 0).
      - destruct listed as [|n l]; [injection K as <-; reflexivity|discriminate K].
      - apply (sets_other (fun n => density ds n / fold_left (fun t p => t + snd p) ds 0) listed _ row c x K Nc). }
    rewrite in_app_iff, in_map_iff. split; [intros [I1|(c' & Q & I1)]; [exact I1|injection Q as <- _; contradiction]|auto].
Qed.
Print Assumptions C85_prob_value.

(** A listed name that is no source of the model gets probability 0 (the files of C85_prob_unknown_refuted meet the
    hypotheses). *)
Theorem C85_prob_unknown_zero (E : Type) accept (model : list (string * (E -> R))) columns l rows out :
  model <> [] -> (forall r, In r rows -> accept (snd r) = true) -> gtsrcprob E accept model columns (Some l) rows = Ok out ->
  forall row n, In row out -> In n l -> ~ In n (map fst model) -> (forall m, In m l -> toLower m = toLower n -> m = n) -> holds row (toLower n) 0.
Proof.
  intros Nm Acc H row n Hrow Hn Hm U. destruct (gtsrcprob_rows accept model columns (Some l) rows out H) as (added & Ad & L & K).
  apply In_nth_error in Hrow. destruct Hrow as (j & Hrow).
  destruct (nth_error rows j) as [[cols e]|] eqn:Hr; [|exfalso; apply nth_error_None in Hr; assert (nth_error out j = None) by (apply nth_error_None; etransitivity; [|exact Hr]; rewrite L; apply Nat.le_refl); congruence].
  specialize (K j (cols, e) row Hr Hrow). cbn [fst source_list] in K. rewrite (read_all accept rows Acc) in K.
  assert (He : nth_error (map snd rows) j = Some e) by (rewrite nth_error_map, Hr; reflexivity).
  destruct (write_row_inv model l (map snd rows) j (cols ++ map (fun c => (c, 0)) added) row e) as [Z S]; [intros ->; destruct Hn|exact Nm|exact He|exact K|].
  pose proof (sets_value _ l _ row n S Hn U) as V. cbv beta in V.
  assert (D : density (map (fun s => (fst s, snd s e)) model) n = 0).
  { unfold density. destruct (find _ _) as [p|] eqn:F; [|reflexivity]. exfalso. apply find_some in F. destruct F as [F Q]. apply String.eqb_eq in Q.
    apply in_map_iff in F. destruct F as (s & <- & Hs). apply Hm. cbn [fst] in Q. rewrite <- Q. apply in_map. exact Hs. }
  rewrite D in V. unfold Rdiv in V. rewrite Rmult_0_l in V. exact V.
Qed.
Print Assumptions C85_prob_unknown_zero.

(** The tool succeeds if the names differ in more than the case of letters and no event has density 0 in all sources. *)
Theorem C85_prob_defined (E : Type) accept (model : list (string * (E -> R))) columns lf (rows : list (evrow E)) :
  let listed := match lf with None => map fst model | Some l => l end in
  NoDup (map toLower listed) -> model <> [] -> (forall r, In r rows -> accept (snd r) = true /\ map fst (fst r) = columns /\ all_sources model (snd r) <> 0) ->
  exists out, gtsrcprob E accept model columns lf rows = Ok out.
Proof.
  intros listed ND Nm H. unfold gtsrcprob. change (source_list E model lf) with listed.
  destruct (append_ok columns listed ND [] (fun _ f => match f with end)) as (added & Ad). assert (Ad' : append_columns columns listed = Ok added) by exact Ad. rewrite Ad'. cbn [obind].
  apply mapM_ok. intros [j r] Hj.
  apply In_nth_error in Hj. destruct Hj as (i & Hi).
  assert (Hj : exists q, nth_error rows j = Some q /\ r = fst q ++ map (fun c => (c, 0)) added).
  { destruct (nth_error rows i) as [q|] eqn:Q.
    - pose proof (nth_error_combine_seq (map (fun r : evrow E => fst r ++ map (fun c => (c, 0)) added) rows) 0 i (fst q ++ map (fun c => (c, 0)) added)) as K.
      rewrite map_length, nth_error_map, Q in K. specialize (K eq_refl). pose proof (eq_trans (eq_sym K) Hi) as K'. injection K' as <- <-. exists q. split; [exact Q|reflexivity].
    - exfalso. apply nth_error_None in Q. assert (T : nth_error (combine (seq 0 (length rows)) (map (fun r : evrow E => fst r ++ map (fun c => (c, 0)) added) rows)) i = None).
      { apply nth_error_None. rewrite combine_length, seq_length. etransitivity; [apply Nat.le_min_l|exact Q]. } pose proof (eq_trans (eq_sym T) Hi) as T'. discriminate T'. }
  destruct Hj as (q & Hq & ->). destruct (H q (nth_error_In _ _ Hq)) as (_ & Kc & Z).
  rewrite (read_all accept rows) by (intros r Hr; apply H; exact Hr).
  assert (He : nth_error (map snd rows) j = Some (snd q)) by exact (eq_trans (nth_error_map snd j rows) (f_equal (option_map snd) Hq)).
  pose proof (write_row_ok model listed (map snd rows) j (fst q ++ map (fun c => (c, 0)) added) (snd q) Nm He Z) as W.
  enough (S : exists r', sets (fun n => density (map (fun s => (fst s, snd s (snd q))) model) n / all_sources model (snd q)) listed (fst q ++ map (fun c => (c, 0)) added) = Ok r').
  { destruct S as (r' & S). exists r'. exact (eq_trans W S). }
  apply sets_ok. intros n Hn. rewrite map_app, Kc, map_map, in_app_iff. cbn [fst]. rewrite map_id.
  pose proof (append_inv columns listed [] added (fun _ _ => or_intror I) Ad (toLower n)) as A. rewrite A.
  destruct (in_dec string_dec (toLower n) columns) as [Y|Y]; [left; exact Y|right; right; split; [apply in_map; exact Hn|exact Y]].
Qed.
Print Assumptions C85_prob_defined.
Definition two : list (string * (R -> R)) := [("Bkg", fun _ => 3); ("Vela", fun e => e)].
Example C85_prob_case : exists out, gtsrcprob R (fun _ => true) two ["energy"] None [([("energy", 7)], 1); ([("energy", 8)], 2)] = Ok out /\ length out = 2%nat /\
  forall row, nth_error out 1 = Some row -> holds row "vela" (2 / 5) /\ holds row "energy" 8.
Proof.
  assert (ND : NoDup (map fst two)) by (cbn; repeat constructor; cbn; intros [H|[]] || intros []; discriminate).
  assert (Acc : forall r : evrow R, In r [([("energy", 7)], 1); ([("energy", 8)], 2)] -> (fun _ : R => true) (snd r) = true) by reflexivity.
  destruct (C85_prob_defined R (fun _ => true) two ["energy"] None [([("energy", 7)], 1); ([("energy", 8)], 2)]) as (out & H).
  - cbn. repeat constructor; cbn; intros [H|[]] || intros []; discriminate.
  - discriminate.
  - intros r [<-|[<-|[]]]; (split; [reflexivity|split; [reflexivity|unfold all_sources, total; cbn; lra]]).
  - exists out. split; [exact H|]. destruct (C85_prob_value R _ two _ _ _ out ND Acc H) as [L K]. split; [exact L|]. intros row Hrow.
    destruct (K 1%nat _ _ row eq_refl Hrow) as [V O]. split.
    + destruct (V "Vela" (fun e => e)) as [_ Vv]; [cbn; auto|cbn; auto| |].
      * intros m [<-|[<-|[]]] Q; [discriminate Q|reflexivity].
      * replace (2 / 5) with (2 / all_sources two 2); [exact Vv|]. unfold all_sources, total. cbn. lra.
    + intros y. rewrite (O "energy" y); [cbn; split; [intros [Q|[]]; congruence|intros ->; auto]|]. cbn. intros [Q|[Q|[]]]; discriminate.
Qed.

(** With all sources listed, the probabilities of an event add up to 1 (the model and the events of C85_prob_case meet the
    hypotheses). *)
Theorem C85_prob_sum_one (E : Type) accept (model : list (string * (E -> R))) columns rows out :
  NoDup (map toLower (map fst model)) -> model <> [] -> (forall r, In r rows -> accept (snd r) = true) -> gtsrcprob E accept model columns None rows = Ok out ->
  forall row, In row out -> exists ps, Forall2 (fun s p => holds row (toLower (fst s)) p) model ps /\ total ps = 1.
Proof.
  intros ND Nm Acc H row Hrow. assert (ND' : NoDup (map fst model)) by (apply NoDup_map_inv in ND; exact ND).
  destruct (C85_prob_value E accept model columns None rows out ND' Acc H) as [L K].
  apply In_nth_error in Hrow. destruct Hrow as (j & Hrow).
  destruct (nth_error rows j) as [[cols e]|] eqn:Hr; [|exfalso; apply nth_error_None in Hr; assert (nth_error out j = None) by (apply nth_error_None; etransitivity; [|exact Hr]; rewrite L; apply Nat.le_refl); congruence].
  destruct (K j cols e row Hr Hrow) as [V _]. cbv zeta in V.
  assert (V' : forall s, In s model -> all_sources model e <> 0 /\ holds row (toLower (fst s)) (snd s e / all_sources model e)).
  { intros [n f] Hs. apply V; [exact Hs|apply in_map_iff; exists (n, f); auto|]. intros m Hm Q. apply (lower_inj _ ND m n Hm); [apply in_map_iff; exists (n, f); auto|exact Q]. }
  exists (map (fun x => x / all_sources model e) (map (fun s => snd s e) model)). split.
  - clear -V'. set (d := all_sources model e) in *. clearbody d. induction model as [|s l IH]; cbn [map]; constructor; [apply V'; left; reflexivity|apply IH; intros s' Hs'; apply V'; right; exact Hs'].
  - rewrite total_div. fold (all_sources model e). destruct model as [|s l]; [congruence|]. destruct (V' s (or_introl eq_refl)) as [Z _]. field. exact Z.
Qed.
Print Assumptions C85_prob_sum_one.

(** Probabilities of densities that are not negative are between 0 and 1, whatever the list (as in
    C85_prob_case). *)
Theorem C85_prob_range (E : Type) accept (model : list (string * (E -> R))) columns lf rows out :
  NoDup (map fst model) -> (forall r, In r rows -> accept (snd r) = true) -> gtsrcprob E accept model columns lf rows = Ok out -> (forall n f e, In (n, f) model -> 0 <= f e) ->
  let listed := match lf with None => map fst model | Some l => l end in NoDup (map toLower listed) ->
  forall row n, In row out -> In n listed -> In n (map fst model) -> exists p, holds row (toLower n) p /\ 0 <= p <= 1.
Proof.
  intros ND Acc H Pos listed NL row n Hrow Hn Hm. destruct (C85_prob_value E accept model columns lf rows out ND Acc H) as [L K].
  apply In_nth_error in Hrow. destruct Hrow as (j & Hrow).
  destruct (nth_error rows j) as [[cols e]|] eqn:Hr; [|exfalso; apply nth_error_None in Hr; assert (nth_error out j = None) by (apply nth_error_None; etransitivity; [|exact Hr]; rewrite L; apply Nat.le_refl); congruence].
  destruct (K j cols e row Hr Hrow) as [V _]. apply in_map_iff in Hm. destruct Hm as ([n' f] & <- & Hs). cbn [fst] in *.
  destruct (V n' f Hs Hn) as [Z Hh]; [intros m Hm Q; apply (lower_inj _ NL m n' Hm Hn Q)|].
  exists (f e / all_sources model e). split; [exact Hh|].
  assert (P : forall y, In y (map (fun s => snd s e) model) -> 0 <= y) by (intros y Hy; apply in_map_iff in Hy; destruct Hy as ([m g] & <- & Hg); apply (Pos m g e Hg)).
  pose proof (total_nonneg _ P) as T. pose proof (total_ge _ (f e) P) as G. fold (all_sources model e) in T, G.
  assert (G' : f e <= all_sources model e) by (apply G; apply in_map_iff; exists (n', f); auto). pose proof (Pos n' f e Hs).
  assert (0 < all_sources model e) by lra. split; [apply Rmult_le_pos; [assumption|left; apply Rinv_0_lt_compat; assumption]|].
  apply Rmult_le_reg_r with (all_sources model e); [assumption|]. unfold Rdiv. rewrite Rmult_assoc, Rinv_l by lra. lra.
Qed.
Print Assumptions C85_prob_range.

(** ** C85: response functions of events *)
(** The event type is the highest bit of the event's types that the mask has. *)
Theorem C85_event_type bits mask t : event_type bits mask = Ok t <->
  (N.testbit bits (N.of_nat t) = true /\ N.testbit mask (N.of_nat t) = true /\ forall k, (t < k)%nat -> N.testbit bits (N.of_nat k) && N.testbit mask (N.of_nat k) = false).
Proof.
  unfold event_type. set (b := N.land bits mask). assert (B : forall k, N.testbit b k = N.testbit bits k && N.testbit mask k) by (intros k; apply N.land_spec).
  destruct (N.eqb_spec b 0) as [Z|Z].
  - split; [discriminate|]. intros (H1 & H2 & _). specialize (B (N.of_nat t)). rewrite Z, N.bits_0, H1, H2 in B. discriminate B.
  - split.
    + intros H. injection H as <-. rewrite N2Nat.id. pose proof (N.bit_log2 b Z) as T. rewrite B in T. apply andb_prop in T. destruct T as [T1 T2]. split; [exact T1|split; [exact T2|]].
      intros k Hk. rewrite <- B. apply N.bits_above_log2. lia.
    + intros (H1 & H2 & H3). f_equal. assert (T : N.testbit b (N.of_nat t) = true) by (rewrite B, H1, H2; reflexivity).
      assert (~ (N.log2 b < N.of_nat t)%N) by (intros Q; rewrite (N.bits_above_log2 b _ Q) in T; discriminate T).
      assert (~ (N.of_nat t < N.log2 b)%N).
      { intros Q. specialize (H3 (N.to_nat (N.log2 b))). rewrite N2Nat.id, <- B, (N.bit_log2 b Z) in H3. enough (true = false) by discriminate. apply H3. lia. }
      lia.
Qed.
Print Assumptions C85_event_type.
Example C85_event_type_case : event_type 9 3 = Ok 0%nat /\ event_type 34 3 = Ok 1%nat /\ event_type 34 60 = Ok 5%nat.
Proof. repeat split. Qed.

(** The response functions loaded are those available for the event types asked for, or all; an exception if there are none. *)
Theorem C85_irfs_loaded ids types :
  (forall loaded, load_irfs (Some ids) types = Ok loaded -> forall i, In i loaded <-> In i ids /\ (types = [] \/ In i types)) /\
  (load_irfs (Some ids) types = Throw <-> forall i, In i ids -> types <> [] /\ ~ In i types) /\ load_irfs None types = Throw.
Proof.
  assert (F : forall i, In i (filter (fun i => match types with [] => true | _ => existsb (Nat.eqb i) types end) ids) <-> In i ids /\ (types = [] \/ In i types)).
  { intros i. rewrite filter_In. destruct types as [|t types]; [intuition|]. rewrite existsb_exists. split.
    - intros (H & k & Hk & Q). apply Nat.eqb_eq in Q. subst k. auto.
    - intros (H & [Q|Q]); [discriminate Q|]. split; [exact H|]. exists i. split; [exact Q|apply Nat.eqb_refl]. }
  unfold load_irfs. split; [|split; [|reflexivity]].
  - intros loaded H i. rewrite <- F. destruct (filter _ ids) as [|a l]; [discriminate H|]. injection H as <-. reflexivity.
  - destruct (filter _ ids) as [|a l].
    + split; [|reflexivity]. intros _ i Hi. specialize (F i). destruct types as [|t types]; [exfalso; apply F; auto|]. split; [discriminate|]. intros Hn. apply F. auto.
    + split; [discriminate|]. intros H. exfalso. destruct (proj1 (F a) (or_introl eq_refl)) as [Ha K]. destruct (H a Ha) as [N1 N2]. destruct K; contradiction.
Qed.
Print Assumptions C85_irfs_loaded.
(** An event of exactly one type of the mask has its response functions if that type was selected and is available. *)
Theorem C85_event_irfs ids types loaded mask bits t : load_irfs (Some ids) types = Ok loaded -> In t ids -> (types = [] \/ In t types) ->
  (forall k, N.testbit bits (N.of_nat k) && N.testbit mask (N.of_nat k) = true <-> k = t) -> event_irfs loaded mask bits = Ok t.
Proof.
  intros H Hi Ht U. assert (T : event_type bits mask = Ok t).
  { apply C85_event_type. pose proof (proj2 (U t) eq_refl) as K. apply andb_prop in K. destruct K as [K1 K2]. split; [exact K1|split; [exact K2|]]. intros k Hk.
    destruct (N.testbit bits (N.of_nat k) && N.testbit mask (N.of_nat k)) eqn:Q; [|reflexivity]. apply U in Q. lia. }
  unfold event_irfs. rewrite T. cbn [obind]. replace (existsb (Nat.eqb t) loaded) with true; [reflexivity|]. symmetry. apply existsb_exists. exists t.
  split; [|apply Nat.eqb_refl]. apply (proj1 (C85_irfs_loaded ids types) loaded H). auto.
Qed.
Print Assumptions C85_event_irfs.
Example C85_event_irfs_case : load_irfs (Some [0; 1; 2; 3]%nat) [0; 1]%nat = Ok [0; 1]%nat /\ event_irfs [0; 1]%nat 3 34 = Ok 1%nat.
Proof. split; reflexivity. Qed.

(** The mask of the events is that of the last EVENT_TYPE selection of the event file, or front and back. *)
Theorem C85_event_mask : (forall a m b, (forall k, ~ In (BitMask "EVENT_TYPE" k) b) -> event_mask (a ++ BitMask "EVENT_TYPE" m :: b) = m) /\
  (forall a, (forall k, ~ In (BitMask "EVENT_TYPE" k) a) -> event_mask a = 3%N).
Proof. exact (C84_mask 3). Qed.
Print Assumptions C85_event_mask.
(** If the response functions are those of the event file's own selection and all selected types are available, every event of a
    selected type has its response functions. *)
Theorem C85_selected_irfs ids cuts bits : (event_mask cuts < 2 ^ 32)%N -> N.land bits (event_mask cuts) <> 0%N ->
  (forall t, N.testbit (event_mask cuts) (N.of_nat t) = true -> In t ids) ->
  exists t, file_event_irfs (Some ids) cuts cuts bits = Ok t /\ N.testbit bits (N.of_nat t) = true /\ N.testbit (event_mask cuts) (N.of_nat t) = true.
Proof.
  intros Lt Nz Av. change (event_mask cuts) with (evtype_mask cuts 3) in *. set (m := evtype_mask cuts 3) in *.
  assert (T : exists t, event_type bits m = Ok t) by (unfold event_type; destruct (N.eqb_spec (N.land bits m) 0); [contradiction|eexists; reflexivity]).
  destruct T as (t & T). pose proof (proj1 (C85_event_type bits m t) T) as (T1 & T2 & _).
  assert (B : (t < 32)%nat).
  { assert (~ (32 <= N.of_nat t)%N); [|lia]. intros Q. rewrite (N.bits_above_log2 m (N.of_nat t)) in T2; [discriminate T2|].
    destruct (N.eq_dec m 0) as [Z|Z]; [rewrite Z; cbn; lia|]. apply N.log2_lt_pow2 in Lt; lia. }
  destruct (C84_event_types cuts 3) as (S & _). fold m in S. assert (Ht : In t (getSelectedEvtTypes cuts 3)) by (apply S; auto).
  destruct (C85_irfs_loaded ids (getSelectedEvtTypes cuts 3)) as (I1 & I2 & _).
  exists t. split; [|auto]. unfold file_event_irfs. change (event_mask cuts) with m.
  destruct (load_irfs (Some ids) (getSelectedEvtTypes cuts 3)) as [loaded| |] eqn:Ld; cbn [obind].
  - unfold event_irfs. rewrite T. cbn [obind]. replace (existsb (Nat.eqb t) loaded) with true; [reflexivity|]. symmetry. apply existsb_exists. exists t.
    split; [|apply Nat.eqb_refl]. apply (I1 loaded eq_refl). auto.
  - exfalso. destruct (proj1 I2 eq_refl t (Av t T2)) as [_ N]. contradiction.
  - exfalso. unfold load_irfs in Ld. destruct (filter _ ids); discriminate.
Qed.
Print Assumptions C85_selected_irfs.
Example C85_selected_irfs_case : file_event_irfs (Some [0; 1; 2; 3; 4; 5]%nat) [BitMask "EVENT_CLASS" 128; BitMask "EVENT_TYPE" 48] [BitMask "EVENT_CLASS" 128; BitMask "EVENT_TYPE" 48] 18 = Ok 4%nat.
Proof. reflexivity. Qed.

(** ** C185 *)
(** "If the tool fails, the output is as it was": files of other zenith angles are found after the first file was copied. *)
Theorem C85_ltsum_atomic_refuted : ~ forall clobber fs old, snd (gtltsum clobber fs old) = Throw -> fst (gtltsum clobber fs old) = old.
Proof.
  intros H. set (f := mk_lf [] (mk_lt [] 0 1 (Some 100)) (mk_lt [] 0 1 None)). set (g := mk_lf [] (mk_lt [] 0 1 None) (mk_lt [] 0 1 None)).
  specialize (H true [f; g] None). unfold gtltsum, check_costheta_bounds, bounds_agree, sum_tables, add_table in H. cbn [mfold f g get_bounds fold_left lf_bounds length Nat.eqb negb seq obind map lf_exp zenmax lt_zen] in H.
  destruct (Reqb_spec 180 100) as [Q|Q]; [lra|]. cbn in H. specialize (H eq_refl). discriminate H.
Qed.
Print Assumptions C85_ltsum_atomic_refuted.
(** "The two tables of the output are of the same data": if the second tables cannot be added, the output keeps the sums of the
    first ones beside the second table of the first file. *)
Theorem C85_ltsum_tables_refuted : ~ forall clobber fs old o out, gtltsum clobber fs old = (Some out, o) -> lt_start (lf_exp out) = lt_start (lf_wexp out) \/ (exists f, In f fs /\ lt_start (lf_exp f) <> lt_start (lf_wexp f)).
Proof.
  intros H. set (f := mk_lf [] (mk_lt [] 1 2 None) (mk_lt [] 1 2 None)). set (g := mk_lf [] (mk_lt [] 0 1 None) (mk_lt [[]] 0 1 None)).
  destruct (H true [f; g] None Throw (mk_lf [] (mk_lt [] 0 2 None) (mk_lt [] 1 2 None))) as [Q|(h & [<-|[<-|[]]] & Q)].
  - unfold gtltsum, check_costheta_bounds, bounds_agree, sum_tables, add_table, add_rows. cbn [mfold f g get_bounds fold_left lf_bounds length Nat.eqb negb seq obind map lf_exp lf_wexp zenmax lt_zen lt_rows lt_start lt_stop].
    destruct (Reqb_spec 180 180) as [_|Q]; [|lra]. cbn [negb obind]. destruct (Rltb_spec 0 1) as [_|Q]; [|lra]. destruct (Rltb_spec 2 1) as [Q|_]; [lra|]. reflexivity.
  - cbn in Q. lra.
  - cbn in Q. lra.
  - cbn in Q. lra.
Qed.
Print Assumptions C85_ltsum_tables_refuted.
(** "No livetime is longer than the time of the file": the same time can be added twice. *)
Theorem C85_ltsum_overlap_refuted : ~ forall clobber fs old out, (forall f i j, In f fs -> cell (lf_exp f) i j <= lt_stop (lf_exp f) - lt_start (lf_exp f)) ->
  gtltsum clobber fs old = (Some out, Ok tt) -> forall i j, cell (lf_exp out) i j <= lt_stop (lf_exp out) - lt_start (lf_exp out).
Proof.
  intros H. set (f := mk_lf [] (mk_lt [[1]] 0 1 None) (mk_lt [] 0 1 None)).
  destruct (gtltsum_inv true f [f] None) as [(out & E & _ & _ & _ & S & _)|[_ [N|(g & [<-|[]] & N)]]].
  - specialize (H true [f; f] None out). destruct S as (_ & S & (T1 & _) & (U1 & _)). cbn [map f lf_exp lt_start lt_stop] in *.
    assert (K : cell (lf_exp out) 0 0 <= lt_stop (lf_exp out) - lt_start (lf_exp out)).
    { apply H; [|exact E]. intros g i j [<-|[<-|[]]]; unfold cell; cbn [f lf_exp lt_rows lt_start lt_stop]; (destruct i as [|[|i]], j as [|[|j]]; cbn; lra). }
    rewrite S in K. unfold total, cell in K. cbn in K. cbn in T1, U1. destruct T1 as [T1|[T1|[]]], U1 as [U1|[U1|[]]]; lra.
  - apply N. left. reflexivity.
  - apply N. apply compatible_refl.
Qed.
Print Assumptions C85_ltsum_overlap_refuted.

(** "Every row gets the probability of its own event": with events outside of the region of interest the rows get those of later
    events, until there are no more and an exception is raised. *)
Theorem C85_prob_rows_refuted : ~ forall (E : Type) accept (model : list (string * (E -> R))) rows j cols e row n f, nth_error rows j = Some (cols, e) -> NoDup (map fst model) -> In (n, f) model ->
  write_row E model [n] (read_events E accept rows) (j, cols) = Ok row -> holds row (toLower n) (f e / all_sources model e).
Proof.
  intros H. set (acc := fun e : R => if Rlt_dec e 2 then false else true).
  assert (R2 : read_events R acc [([("vela", 0)], 1); ([("vela", 0)], 2)] = [2]).
  { unfold read_events, acc. cbn [map snd filter]. destruct (Rlt_dec 1 2); [|lra]. destruct (Rlt_dec 2 2); [lra|]. reflexivity. }
  assert (A2 : all_sources two 2 = 5) by (unfold all_sources, total; cbn; lra). assert (A1 : all_sources two 1 = 4) by (unfold all_sources, total; cbn; lra).
  assert (ND : NoDup (map fst two)) by (cbn; repeat constructor; cbn; intros [K|[]] || intros []; discriminate).
  specialize (H R acc two [([("vela", 0)], 1); ([("vela", 0)], 2)] 0%nat [("vela", 0)] 1 [("vela", 2 / 5)] "Vela" (fun e => e) eq_refl ND (or_intror (or_introl eq_refl))).
  rewrite R2, A1 in H. rewrite (write_row_ok two ["Vela"] [2] 0 [("vela", 0)] 2) in H; [|discriminate|reflexivity|rewrite A2; lra].
  rewrite A2 in H. specialize (H eq_refl). destruct (H (2 / 5)) as [K _]. specialize (K (or_introl eq_refl)). lra.
Qed.
Print Assumptions C85_prob_rows_refuted.
Theorem C85_prob_rejected_refuted : ~ forall (E : Type) accept (model : list (string * (E -> R))) columns lf rows, (forall r, In r rows -> map fst (fst r) = columns /\ all_sources model (snd r) <> 0) -> model <> [] ->
  NoDup (map toLower (match lf with None => map fst model | Some l => l end)) -> exists out, gtsrcprob E accept model columns lf rows = Ok out.
Proof.
  intros H. destruct (H R (fun _ => false) two [] (Some []) [([], 1)]) as (out & K); [|discriminate|constructor|discriminate K].
  intros r [<-|[]]. split; [reflexivity|]. unfold all_sources, total. cbn. lra.
Qed.
Print Assumptions C85_prob_rejected_refuted.
(** "A listed name that is not in the model is refused": it gets probability 0. *)
Theorem C85_prob_unknown_refuted : ~ forall (E : Type) accept (model : list (string * (E -> R))) columns l rows out, gtsrcprob E accept model columns (Some l) rows = Ok out -> rows <> [] -> forall n, In n l -> In n (map fst model).
Proof.
  intros H. destruct (C85_prob_defined R (fun _ => true) two [] (Some ["Crab"]) [([], 1)]) as (out & K).
  - cbn. repeat constructor. intros [].
  - discriminate.
  - intros r [<-|[]]. repeat split. unfold all_sources, total. cbn. lra.
  - specialize (H R (fun _ => true) two [] ["Crab"] [([], 1)] out K). destruct (H ltac:(discriminate) "Crab" (or_introl eq_refl)) as [Q|[Q|[]]]; discriminate Q.
Qed.
Print Assumptions C85_prob_unknown_refuted.
(** "The columns of the events are kept": a source with the name of a column is written over it. *)
Theorem C85_prob_columns_refuted : ~ forall (E : Type) accept (model : list (string * (E -> R))) columns lf rows out, gtsrcprob E accept model columns lf rows = Ok out ->
  forall j cols e row c x, nth_error rows j = Some (cols, e) -> nth_error out j = Some row -> In c columns -> In (c, x) cols -> In (c, x) row.
Proof.
  intros H. set (m := [("Energy", fun _ : R => 3)]). assert (A : all_sources m 1 = 3) by (unfold all_sources, total; cbn; lra).
  assert (ND : NoDup (map fst m)) by (cbn; repeat constructor; intros []).
  assert (Acc : forall r : evrow R, In r [([("energy", 7)], 1)] -> (fun _ : R => true) (snd r) = true) by reflexivity.
  destruct (C85_prob_defined R (fun _ => true) m ["energy"] None [([("energy", 7)], 1)]) as (out & K).
  - cbn. repeat constructor. intros [].
  - discriminate.
  - intros r [<-|[]]. cbn [snd fst map]. rewrite A. repeat split. lra.
  - destruct (C85_prob_value R _ m _ _ _ out ND Acc K) as [L V]. destruct out as [|row [|? ?]]; try discriminate L.
    destruct (V 0%nat _ _ row eq_refl eq_refl) as [V1 _]. destruct (V1 "Energy" (fun _ => 3) (or_introl eq_refl) (or_introl eq_refl)) as [_ Hh]; [intros k [<-|[]] _; reflexivity|].
    specialize (H R _ m _ _ _ _ K 0%nat [("energy", 7)] 1 row "energy" 7 eq_refl eq_refl (or_introl eq_refl) (or_introl eq_refl)).
    apply Hh in H. rewrite A in H. lra.
Qed.
Print Assumptions C85_prob_columns_refuted.
(** "Sources of different names have different columns": names that differ only in the case of letters make the tool fail. *)
Theorem C85_prob_case_refuted : ~ forall (E : Type) accept (model : list (string * (E -> R))) columns rows, NoDup (map fst model) -> (forall r, In r rows -> accept (snd r) = true /\ map fst (fst r) = columns /\ all_sources model (snd r) <> 0) -> model <> [] ->
  exists out, gtsrcprob E accept model columns None rows = Ok out.
Proof.
  intros H. destruct (H R (fun _ => true) [("Src", fun _ => 1); ("SRC", fun _ => 1)] [] []) as (out & K); [|intros r []|discriminate|discriminate K].
  cbn. repeat constructor; cbn; intros [Q|[]] || intros []; discriminate.
Qed.
Print Assumptions C85_prob_case_refuted.
(** "Every event has probabilities": an event outside of all sources (density 0) gives a division by 0. *)
Theorem C85_prob_zero_refuted : ~ forall (E : Type) (model : list (string * (E -> R))) columns rows, (forall n f e, In (n, f) model -> 0 <= f e) -> NoDup (map toLower (map fst model)) -> gtsrcprob E (fun _ => true) model columns None rows <> UB.
Proof.
  intros H. apply (H R [("Src", fun _ => 0)] [] [([], 1)]).
  - intros n f e [Q|[]]. injection Q as <- <-. lra.
  - cbn. repeat constructor. intros [].
  - unfold gtsrcprob, write_row. cbn. destruct (Reqb_spec (0 + 0) 0) as [_|Q]; [reflexivity|lra].
Qed.
Print Assumptions C85_prob_zero_refuted.

(** "Events of the file have response functions, or there is an exception": the types of an unbinned analysis can be asked for by a
    parameter, the events are those of the file, and an event of another type is looked up in vain. *)
Theorem C85_asked_types_refuted : ~ forall read irf_cuts p rc evfile fc ids bits, response_cuts read irf_cuts p true = Ok rc -> p_evfile p = Some evfile -> read evfile = Ok fc ->
  N.land bits (event_mask fc) <> 0%N -> (forall t, (t < 32)%nat -> In t ids) -> file_event_irfs (Some ids) rc fc bits <> UB.
Proof.
  intros H. set (p := mk_pars "P8R3_SOURCE_V3" (Some 1%N) None (Some "ft1.fits") None None None).
  apply (H (fun _ => Ok [BitMask "EVENT_CLASS" 128]) (fun _ => [BitMask "EVENT_CLASS" 128]) p [BitMask "EVENT_CLASS" 128; BitMask "EVENT_TYPE" 1] "ft1.fits" [BitMask "EVENT_CLASS" 128] (seq 0 32) 2%N); try reflexivity.
  - discriminate.
  - intros t Ht. apply in_seq. lia.
Qed.
Print Assumptions C85_asked_types_refuted.
(** "Every event has a type": of an event with no type of the mask the logarithm of 0 is taken. *)
Theorem C85_no_type_refuted : ~ forall bits mask, (0 < bits)%N -> (0 < mask)%N -> event_type bits mask <> UB.
Proof. intros H. apply (H 4%N 3%N); reflexivity. Qed.
Print Assumptions C85_no_type_refuted.

(** C77/C177: counts maps, weights and effective backgrounds. *)
From Coq Require Import Reals Lra String Permutation.
From Verif Require Import Base AccumModel AccumProofs HistModel HistSpec HistProofs DexpSpec CmapModel CmapSpec CmapProofs CmapProofs2.
Open Scope string_scope.
Open Scope list_scope.
Open Scope R_scope.

(** *** Energy bins *)
Theorem C77_bins :
  forall old es, es <> [] ->
  exists ws cs, fillEnergyBinWidths old es = Ok ws /\ fillEnergyBinGeomCenters old es = Ok cs /\
    length ws = (length es - 1)%nat /\ length cs = (length es - 1)%nat /\
    forall k, (S k < length es)%nat -> nth k ws 0 = nth (S k) es 0 - nth k es 0 /\
      (0 <= nth k es 0 <= nth (S k) es 0 -> 0 <= nth k cs 0 /\ nth k cs 0 * nth k cs 0 = nth k es 0 * nth (S k) es 0 /\
                                            nth k es 0 <= nth k cs 0 <= nth (S k) es 0).
Proof.
  intros old es H. exists (map (width es) (seq 0 (length es - 1))), (map (centre es) (seq 0 (length es - 1))).
  split; [now apply widths_ok|]. split; [now apply centres_ok|].
  rewrite !map_length, !seq_length. split; [reflexivity|]. split; [reflexivity|]. intros k Hk.
  assert (E : forall f, nth k (map f (seq 0 (length es - 1))) 0 = f k).
  { intros f. rewrite (nth_indep _ 0 (f 0%nat)) by (rewrite map_length, seq_length; lia). rewrite map_nth, seq_nth by lia. reflexivity. }
  rewrite !E. split; [reflexivity|]. intros (H0 & H1). unfold centre.
  set (a := nth k es 0) in *. set (b := nth (S k) es 0) in *.
  assert (Hab : 0 <= a * b) by (apply Rmult_le_pos; lra).
  split; [apply sqrt_pos|]. split; [now apply sqrt_sqrt|]. split.
  - apply Rle_trans with (sqrt (a * a)); [rewrite sqrt_square; lra|]. apply sqrt_le_1_alt. apply Rmult_le_compat_l; lra.
  - apply Rle_trans with (sqrt (b * b)); [|rewrite sqrt_square; lra]. apply sqrt_le_1_alt. apply Rmult_le_compat_r; lra.
Qed.
Print Assumptions C77_bins.
Example C77_case_bins : fillEnergyBinWidths [] [1; 4; 9] = Ok [4 - 1; 9 - 4].
Proof. reflexivity. Qed.

(** Without edges the vectors keep what they held before: the widths of another map are left in place. *)
Theorem C77_no_edges_refuted : exists old, fillEnergyBinWidths old [] = Ok old /\ old <> [].
Proof. exists [5]. split; [reflexivity|discriminate]. Qed.
Print Assumptions C77_no_edges_refuted.

(** *** Weights of several background components *)

(** The weight in every cell, for maps of the same size: given by the values of all the maps in that cell. *)
Theorem C77_alpha :
  forall e maps n, 0 <= e -> maps <> [] -> sized n maps -> (20 <= n)%nat ->
  (forall v c, In v maps -> (c < n)%nat -> 0 < nth c v 0) ->
  exists a, makeAlphaMap e maps = Ok (Some a) /\ length a = n /\
    forall c m, (c < n)%nat -> smallest (in_cell maps c) m ->
      nth c a 0 = alpha e m (in_cell maps c) /\ 0 < nth c a 0 <= 1 /\
      (length maps = 1%nat -> nth c a 0 = 1) /\
      (0 < e -> (2 <= length maps)%nat -> nth c a 0 < 1).
Proof.
  intros e maps n He Hne Hs Hn Hpos.
  assert (Hv : exists v : nat -> R, forall c, (c < n)%nat -> getAlphaWts e (in_cell maps c) = Ok (v c)).
  { exists (fun c => match getAlphaWts e (in_cell maps c) with Ok x => x | _ => 0 end). intros c Hc.
    destruct (bmin_ok (in_cell maps c)) as (m & _ & Hm); [unfold in_cell; destruct maps; [congruence|discriminate]|].
    rewrite (alphaWts_pos e _ m He Hm); [reflexivity|]. destruct Hm as (Hin & _). unfold in_cell in Hin.
    apply in_map_iff in Hin as (v & <- & Hv). now apply Hpos. }
  destruct Hv as (v & Hv).
  exists (map v (seq 0 n)). split; [|split].
  - unfold makeAlphaMap. destruct maps as [|m0 maps]; [congruence|].
    rewrite (alphaVector_ok e (m0 :: maps) n m0 v Hn (Hs m0 (or_introl eq_refl)) Hs Hv). reflexivity.
  - now rewrite map_length, seq_length.
  - intros c m Hc Hm.
    rewrite (nth_indep _ 0 (v 0%nat)) by (rewrite map_length, seq_length; lia). rewrite map_nth, seq_nth by lia. cbn [Nat.add].
    assert (Hm0 : 0 < m).
    { destruct Hm as (Hin & _). unfold in_cell in Hin. apply in_map_iff in Hin as (w & <- & Hw). now apply Hpos. }
    specialize (Hv c Hc). rewrite (alphaWts_pos e _ m He Hm Hm0) in Hv. injection Hv as <-.
    split; [reflexivity|]. split; [now apply alpha_bounds|]. split.
    + intros H1. destruct maps as [|w [|]]; try discriminate. unfold in_cell in *. cbn [map] in *.
      destruct Hm as ([<-|[]] & _). now apply alpha_one.
    + intros He' H2. apply alpha_strict; auto. unfold in_cell. now rewrite map_length.
Qed.
Print Assumptions C77_alpha.
Example C77_case_alpha : sized 20 [repeat 2 20; repeat 6 20] /\ smallest (in_cell [repeat 2 20; repeat 6 20] 3) 2 /\
  alpha 1 2 (in_cell [repeat 2 20; repeat 6 20] 3) = 27 / 29.
Proof.
  split; [intros v [<-|[<-|[]]]; reflexivity|]. split.
  - unfold in_cell. cbn. split; [now left|]. intros x [<-|[<-|[]]]; lra.
  - unfold alpha, in_cell, total. cbn. field.
Qed.

(** Where a map holds zero (or less) the weight is 1 + e m. *)
Theorem C77_alpha_zero :
  forall e maps n, maps <> [] -> sized n maps -> (20 <= n)%nat -> (forall c m, (c < n)%nat -> smallest (in_cell maps c) m -> m <= 0) ->
  exists a, makeAlphaMap e maps = Ok (Some a) /\ length a = n /\
    forall c m, (c < n)%nat -> smallest (in_cell maps c) m -> nth c a 0 = 1 + e * m /\ (m = 0 -> nth c a 0 = 1).
Proof.
  intros e maps n Hne Hs Hn Hz.
  assert (Hv : exists v : nat -> R, forall c, (c < n)%nat -> getAlphaWts e (in_cell maps c) = Ok (v c)).
  { exists (fun c => match getAlphaWts e (in_cell maps c) with Ok x => x | _ => 0 end). intros c Hc.
    destruct (bmin_ok (in_cell maps c)) as (m & _ & Hm); [unfold in_cell; destruct maps; [congruence|discriminate]|].
    rewrite (alphaWts_nonpos e _ m Hm); [reflexivity|]. eapply Hz; eauto. }
  destruct Hv as (v & Hv).
  exists (map v (seq 0 n)). split; [|split].
  - unfold makeAlphaMap. destruct maps as [|m0 maps]; [congruence|].
    rewrite (alphaVector_ok e (m0 :: maps) n m0 v Hn (Hs m0 (or_introl eq_refl)) Hs Hv). reflexivity.
  - now rewrite map_length, seq_length.
  - intros c m Hc Hm.
    rewrite (nth_indep _ 0 (v 0%nat)) by (rewrite map_length, seq_length; lia). rewrite map_nth, seq_nth by lia. cbn [Nat.add].
    specialize (Hv c Hc). rewrite (alphaWts_nonpos e _ m Hm (Hz c m Hc Hm)) in Hv. injection Hv as <-.
    split; [reflexivity|]. intros ->. lra.
Qed.
Print Assumptions C77_alpha_zero.

(** The order of the maps does not matter. *)
Theorem C77_alpha_order :
  forall e maps maps' n, 0 <= e -> Permutation maps maps' -> maps <> [] -> sized n maps -> (20 <= n)%nat ->
  (forall v c, In v maps -> (c < n)%nat -> 0 < nth c v 0) ->
  makeAlphaMap e maps = makeAlphaMap e maps'.
Proof.
  intros e maps maps' n He Hp Hne Hs Hn Hpos.
  assert (Hne' : maps' <> []) by (intros ->; apply Permutation_sym, Permutation_nil in Hp; congruence).
  assert (Hs' : sized n maps') by (intros v Hv; apply Hs; eapply Permutation_in; [apply Permutation_sym; exact Hp|exact Hv]).
  destruct (C77_alpha e maps n He Hne Hs Hn Hpos) as (a & Ea & La & Ha).
  destruct (C77_alpha e maps' n He Hne' Hs' Hn) as (a' & Ea' & La' & Ha').
  { intros v c Hv. apply Hpos. eapply Permutation_in; [apply Permutation_sym; exact Hp|exact Hv]. }
  rewrite Ea, Ea'. f_equal. f_equal. apply (list_ext_nth _ _ 0); [lia|]. intros c Hc. rewrite La in Hc.
  assert (Hpc : Permutation (in_cell maps c) (in_cell maps' c)) by (unfold in_cell; now apply Permutation_map).
  destruct (bmin_ok (in_cell maps c)) as (m & _ & Hm); [unfold in_cell; destruct maps; [congruence|discriminate]|].
  assert (Hm' : smallest (in_cell maps' c) m).
  { destruct Hm as (Hin & Hle). split; [eapply Permutation_in; eauto|]. intros x Hx. apply Hle. eapply Permutation_in; [apply Permutation_sym; exact Hpc|exact Hx]. }
  destruct (Ha c m Hc Hm) as (-> & _). destruct (Ha' c m Hc Hm') as (-> & _).
  unfold alpha. f_equal. f_equal. f_equal.
  assert (T : forall l l', Permutation l l' -> total l = total l').
  { unfold total. intros l l' HP. induction HP; cbn [fold_right]; lra. }
  apply T. now apply Permutation_map.
Qed.
Print Assumptions C77_alpha_order.

(** The weight of every cell is the combined weight over 1 + e B; it is between 0 and 1, and falls as B rises. *)
Theorem C77_weights :
  forall e alphas beff, 0 <= e -> (20 <= length beff)%nat -> (forall c, (c < length beff)%nat -> 0 <= nth c beff 0) ->
  match alphas with None => True
  | Some a => length a = length beff /\ forall c, (c < length a)%nat -> 0 < nth c a 0 <= 1 end ->
  exists w, makeWtsMap e alphas beff = Ok w /\ length w = length beff /\
    forall c, (c < length beff)%nat ->
      nth c w 0 * (1 + e * nth c beff 0) = match alphas with None => 1 | Some a => nth c a 0 end /\
      0 < nth c w 0 <= 1 /\
      forall c', (c' < length beff)%nat -> alphas = None -> nth c beff 0 <= nth c' beff 0 -> nth c' w 0 <= nth c w 0.
Proof.
  intros e alphas beff He Hn Hb Ha. unfold makeWtsMap.
  rewrite (wts_ok e _ beff beff Hn eq_refl He Hb). eexists. split; [reflexivity|].
  rewrite map_length, seq_length. split; [reflexivity|]. intros c Hc.
  set (al := match alphas with Some a => a | None => [] end).
  set (g := fun c => 1 / (1 + e * nth c beff 0) * (if (c <? length al)%nat then nth c al 0 else 1)).
  assert (E : forall c, (c < length beff)%nat -> nth c (map g (seq 0 (length beff))) 0 = g c).
  { intros k Hk. rewrite (nth_indep _ 0 (g 0%nat)) by (rewrite map_length, seq_length; lia). rewrite map_nth, seq_nth by lia. reflexivity. }
  assert (D : forall c, (c < length beff)%nat -> 1 <= 1 + e * nth c beff 0).
  { intros k Hk. pose proof (Rmult_le_pos e (nth k beff 0) He (Hb k Hk)). lra. }
  assert (F : (if (c <? length al)%nat then nth c al 0 else 1) = match alphas with None => 1 | Some a => nth c a 0 end).
  { subst al. destruct alphas as [a|].
    - destruct Ha as (Hl & _). replace (c <? length a)%nat with true by (symmetry; apply Nat.ltb_lt; lia). reflexivity.
    - reflexivity. }
  rewrite (E c Hc). pose proof (D c Hc) as Dc. split; [|split].
  - unfold g. rewrite F. field. lra.
  - assert (Q : 0 < match alphas with None => 1 | Some a => nth c a 0 end <= 1).
    { destruct alphas as [a|]; [apply Ha; lia|lra]. }
    unfold g. rewrite F. set (q := match alphas with None => 1 | Some a => nth c a 0 end) in *.
    assert (0 < / (1 + e * nth c beff 0)) by (apply Rinv_0_lt_compat; lra).
    assert (/ (1 + e * nth c beff 0) <= 1) by (rewrite <- Rinv_1; apply Rinv_le_contravar; lra).
    unfold Rdiv. rewrite Rmult_1_l. split; [apply Rmult_lt_0_compat; lra|].
    apply Rle_trans with (1 * 1); [apply Rmult_le_compat; lra|lra].
  - intros c' Hc' Hno Hle. rewrite (E c' Hc'). unfold g. subst al. rewrite Hno. cbn [length].
    replace (c' <? 0)%nat with false by reflexivity. replace (c <? 0)%nat with false by reflexivity.
    rewrite !Rmult_1_r. unfold Rdiv. rewrite !Rmult_1_l. apply Rinv_le_contravar; [lra|].
    apply Rplus_le_compat_l. now apply Rmult_le_compat_l.
Qed.
Print Assumptions C77_weights.

(** Equal backgrounds in N components: each component gets the weight of their sum, 1 / (1 + N e b). *)
Theorem C77_equal_components :
  forall e b N n, 0 <= e -> 0 < b -> (0 < N)%nat -> (20 <= n)%nat ->
  exists a w, makeAlphaMap e (repeat (repeat b n) N) = Ok (Some a) /\
    makeWtsMap e (Some a) (repeat b n) = Ok w /\ length w = n /\
    forall c, (c < n)%nat -> nth c w 0 = 1 / (1 + INR N * (e * b)).
Proof.
  intros e b N n He Hb HN Hn.
  assert (Hin : forall v, In v (repeat (repeat b n) N) -> v = repeat b n) by (intros v; apply repeat_spec).
  assert (Hne : repeat (repeat b n) N <> []) by (destruct N; [lia|discriminate]).
  assert (Hnr : forall c, (c < n)%nat -> nth c (repeat b n) 0 = b).
  { intros c Hc. rewrite (nth_indep _ 0 b) by (now rewrite repeat_length). apply nth_repeat. }
  destruct (C77_alpha e (repeat (repeat b n) N) n He Hne) as (a & Ea & La & Ha); auto.
  { intros v Hv. rewrite (Hin v Hv). apply repeat_length. }
  { intros v c Hv Hc. rewrite (Hin v Hv), Hnr by auto. exact Hb. }
  destruct (C77_weights e (Some a) (repeat b n) He) as (w & Ew & Lw & Hw).
  { now rewrite repeat_length. }
  { intros c Hc. rewrite repeat_length in Hc. rewrite Hnr by auto. lra. }
  { rewrite repeat_length. split; [exact La|]. intros c Hc. rewrite La in Hc.
    destruct (bmin_ok (in_cell (repeat (repeat b n) N) c)) as (m & _ & Hm).
    { unfold in_cell. destruct N; [lia|discriminate]. }
    now destruct (Ha c m Hc Hm) as (_ & ? & _). }
  exists a, w. split; [exact Ea|]. split; [exact Ew|]. rewrite repeat_length in *. split; [exact Lw|].
  intros c Hc. destruct (Hw c Hc) as (E & _). rewrite Hnr in E by auto.
  assert (Ec : in_cell (repeat (repeat b n) N) c = repeat b N).
  { unfold in_cell. clear -Hnr Hc. induction N as [|N IH]; [reflexivity|]. cbn [repeat map]. rewrite IH. f_equal. now apply Hnr. }
  assert (Hm : smallest (in_cell (repeat (repeat b n) N) c) b).
  { rewrite Ec. split; [destruct N; [lia|now left]|]. intros x Hx. apply repeat_spec in Hx. lra. }
  destruct (Ha c b Hc Hm) as (E2 & _). rewrite Ec in E2. rewrite E2, (alpha_equal e b N He Hb) in E.
  assert (0 <= e * b) by (apply Rmult_le_pos; lra). pose proof (pos_INR N).
  assert (0 <= INR N * (e * b)) by (apply Rmult_le_pos; lra).
  apply (Rmult_eq_reg_r (1 + e * b)); [|lra]. rewrite E. field. lra.
Qed.
Print Assumptions C77_equal_components.

(** With no maps there is no weights map. *)
Theorem C77_alpha_none : forall e, makeAlphaMap e [] = Ok None.
Proof. reflexivity. Qed.
Print Assumptions C77_alpha_none.

(** Maps with fewer than 20 cells: the dots of the progress display divide by zero. *)
Theorem C77_few_cells_refuted :
  (forall e v maps, (0 < length v < 20)%nat -> makeAlphaMap e (v :: maps) = UB) /\
  (forall e a beff, (0 < length beff < 20)%nat -> makeWtsMap e a beff = UB).
Proof.
  split.
  - intros e v maps H. unfold makeAlphaMap, getAlphaVector. rewrite (Nat.div_small (length v) 20) by lia.
    destruct (length v) as [|k]; [lia|]. reflexivity.
  - intros e a b H. unfold makeWtsMap, getWts. rewrite (Nat.div_small (length b) 20) by lia.
    destruct (length b) as [|k]; [lia|]. reflexivity.
Qed.
Print Assumptions C77_few_cells_refuted.

(** A map with fewer cells than the first one is read out of bounds. *)
Theorem C77_sizes_refuted :
  forall e, makeAlphaMap e [repeat 1 20; repeat 1 19] = UB.
Proof.
  intros e. unfold makeAlphaMap, getAlphaVector. change (length (repeat 1 20)) with 20%nat.
  change (20 / 20 =? 0)%nat with false. cbn [seq].
  set (step := fun av idx => _).
  assert (K : forall l ws, (forall i, In i l -> (i < 19)%nat) -> length ws = 20%nat ->
            (exists ws', mfold step l ws = Ok ws' /\ length ws' = 20%nat) \/ mfold step l ws = UB).
  { induction l as [|i l IH]; intros ws Hl Hw; [left; exists ws; auto|]. cbn [mfold].
    assert (Hi : (i < 19)%nat) by (apply Hl; now left).
    assert (E1 : nth i (repeat 1 20) 0 = 1) by (rewrite (nth_indep _ 0 1) by (rewrite repeat_length; lia); apply nth_repeat).
    assert (E2 : nth i (repeat 1 19) 0 = 1) by (rewrite (nth_indep _ 0 1) by (rewrite repeat_length; lia); apply nth_repeat).
    assert (Es : step ws i = obind (getAlphaWts e [1; 1]) (fun a => vec_set ws i a)).
    { unfold step, values_at. cbn [omap]. rewrite !(vec_get_ok _ i 0) by (rewrite repeat_length; lia). cbn [obind].
      now rewrite E1, E2. }
    rewrite Es. destruct (getAlphaWts e [1; 1]) as [x| |] eqn:E; cbn [obind].
    - rewrite vec_set_ok by lia. cbn [obind].
      destruct (IH (upd ws i x)) as [Hok|Hub]; [intros j Hj; apply Hl; now right|rewrite upd_length; lia| |].
      + left. exact Hok.
      + right. exact Hub.
    - exfalso. revert E. unfold getAlphaWts, bmin_of, sumk2_of. cbn [fold_left].
      destruct (Rltb 1 1); cbn [fold_left mfold]; destruct (Rleb 1 0); cbn [obind]; destruct (Reqb 1 0); cbn [obind];
        try (intros; discriminate); destruct (Reqb _ 0); intros; discriminate.
    - now right. }
  match goal with |- obind (mfold step ?l ?w) _ = _ =>
    change l with ([0;1;2;3;4;5;6;7;8;9;10;11;12;13;14;15;16;17;18]%nat ++ [19%nat]) end.
  rewrite mfold_snoc'.
  destruct (K [0;1;2;3;4;5;6;7;8;9;10;11;12;13;14;15;16;17;18]%nat (repeat 1 20)) as [(ws & E & Hw)|E].
  - intros i Hi. cbn [In] in Hi. lia.
  - reflexivity.
  - rewrite E. cbn [obind]. unfold step. reflexivity.
  - rewrite E. reflexivity.
Qed.
Print Assumptions C77_sizes_refuted.

(** A weights map with fewer cells leaves the cells after its end without their combined weight. *)
Theorem C77_short_alpha_refuted :
  exists w, makeWtsMap 1 (Some (repeat (1 / 2) 10)) (repeat 1 20) = Ok w /\ nth 9 w 0 = 1 / 4 /\ nth 10 w 0 = 1 / 2.
Proof.
  unfold makeWtsMap. rewrite (wts_ok 1 (repeat (1 / 2) 10) (repeat 1 20) (repeat 1 20)).
  - eexists. split; [reflexivity|]. cbn. split; field.
  - cbn. lia.
  - reflexivity.
  - lra.
  - intros c Hc. rewrite (nth_indep _ 0 1) by exact Hc. rewrite nth_repeat. lra.
Qed.
Print Assumptions C77_short_alpha_refuted.

(** Negative contents, which a convolution can produce, give weights that are not positive. *)
Theorem C77_negative_refuted :
  exists a, makeAlphaMap 1 [repeat (-2) 20] = Ok (Some a) /\ nth 0 a 0 = -1.
Proof.
  assert (Hc : forall c, (c < 20)%nat -> in_cell [repeat (-2) 20] c = [-2]).
  { intros c H. unfold in_cell. cbn [map]. f_equal. rewrite (nth_indep _ 0 (-2)) by (rewrite repeat_length; exact H). apply nth_repeat. }
  destruct (C77_alpha_zero 1 [repeat (-2) 20] 20) as (a & E & L & H); auto.
  - discriminate.
  - intros v [<-|[]]. reflexivity.
  - intros c m Hl Hm. rewrite Hc in Hm by auto. destruct Hm as ([<-|[]] & _). lra.
  - exists a. split; [exact E|]. destruct (H 0%nat (-2)) as (-> & _); [lia| |lra].
    rewrite Hc by lia. split; [now left|]. intros x [<-|[]]. lra.
Qed.
Print Assumptions C77_negative_refuted.

(** *** Effective background *)
Theorem C77_background :
  forall es peak f nx ny conv data, energy_grid es -> 0 < f ->
  (forall k, (k < length es - 1)%nat -> peak (centre es k) <> 0) ->
  planes (length es - 1) nx ny conv -> length data = ((length es - 1) * (nx * ny))%nat ->
  exists out, makeBkgEffMap peak es nx ny f conv data = Ok out /\ length out = length data /\
    forall i j k, (i < nx)%nat -> (j < ny)%nat -> (k < length es - 1)%nat ->
      nth (cell_index nx ny i j k) out 0
      = effective es peak f (length es - 1) (fun k _ => nth i (nth j (nth k conv []) []) 0) k 0.
Proof.
  intros es peak f nx ny conv data Hes Hf Hp Hc Hd.
  destruct (bkg_ok es peak f nx ny conv data Hes Hf Hp Hc Hd) as (out & E & Hl & Hv).
  exists out. split; [exact E|]. split; [exact Hl|]. intros i j k Hi Hj Hk. unfold cell_index.
  replace ((k * ny + j) * nx + i)%nat with (k * (nx * ny) + (j * nx + i))%nat by nia.
  rewrite Hv by auto. unfold effective.
  assert (Q1 : ((j * nx + i) / nx)%nat = j) by (rewrite Nat.div_add_l by lia; rewrite Nat.div_small by lia; lia).
  assert (Q2 : ((j * nx + i) mod nx)%nat = i) by (rewrite Nat.add_comm, Nat.mod_add, Nat.mod_small by lia; reflexivity).
  rewrite Q1, Q2. reflexivity.
Qed.
Print Assumptions C77_background.
Example C77_case_background : energy_grid [1; 4; 16] /\ planes 2 2 1 [[[1; 2]]; [[3; 4]]] /\
  effective [1; 4; 16] (fun _ => 1) 4 2 (fun k _ => nth 1 (nth 0 (nth k [[[1; 2]]; [[3; 4]]] []) []) 0) 0 0 = 2 * 3 + 4 * 12.
Proof.
  split; [|split].
  - split; [cbn; lia|]. split; [cbn; lra|]. intros [|[|i]] H; cbn in *; try lia; lra.
  - split; [reflexivity|]. intros [|[|k]] H; try lia; cbn; (split; [reflexivity|]); intros r [<-|[]]; reflexivity.
  - unfold effective. cbn [sum Nat.leb].
    assert (C0 : centre [1; 4; 16] 0 = 2) by (unfold centre; cbn; replace (1 * 4) with (2 * 2) by ring; apply sqrt_square; lra).
    assert (C1 : centre [1; 4; 16] 1 = 8) by (unfold centre; cbn; replace (4 * 16) with (8 * 8) by ring; apply sqrt_square; lra).
    rewrite C0, C1. destruct (Rle_dec 2 (4 * 2)); [|lra]. destruct (Rle_dec 8 (4 * 2)); [|lra].
    unfold width. cbn. field.
Qed.

(** With a factor of one only the bin itself counts; the result does not depend on the counts that the map held. *)
Theorem C77_background_own_bin :
  forall es peak nx ny conv data i j k, energy_grid es ->
  (forall k, (k < length es - 1)%nat -> peak (centre es k) <> 0) ->
  planes (length es - 1) nx ny conv -> length data = ((length es - 1) * (nx * ny))%nat ->
  (i < nx)%nat -> (j < ny)%nat -> (k < length es - 1)%nat ->
  exists out, makeBkgEffMap peak es nx ny 1 conv data = Ok out /\
    nth (cell_index nx ny i j k) out 0 = nth i (nth j (nth k conv []) []) 0 * width es k / peak (centre es k).
Proof.
  intros es peak nx ny conv data i j k Hes Hp Hc Hd Hi Hj Hk.
  destruct (C77_background es peak 1 nx ny conv data Hes ltac:(lra) Hp Hc Hd) as (out & E & _ & Hv).
  exists out. split; [exact E|]. rewrite Hv by auto. unfold effective.
  set (g := fun k0 => if (k <=? k0)%nat then _ else 0).
  assert (Hlt : forall a b, (a < b)%nat -> (b < length es - 1)%nat -> centre es a < centre es b).
  { intros a b Hab Hb. unfold centre. apply sqrt_lt_1_alt.
    assert (0 < nth a es 0) by (apply DexpProofs.grid_pos; auto; lia).
    assert (0 < nth (S a) es 0) by (apply DexpProofs.grid_pos; auto; lia).
    assert (nth a es 0 < nth b es 0) by (apply DexpProofs.grid_lt; auto; lia).
    assert (nth (S a) es 0 < nth (S b) es 0) by (apply DexpProofs.grid_lt; auto; lia).
    split; [apply Rmult_le_pos; lra|]. apply Rmult_gt_0_lt_compat; lra. }
  assert (S1 : forall m, (m <= k)%nat -> sum m g = 0).
  { induction m as [|m IH]; intros Hm; cbn [sum]; [reflexivity|]. rewrite IH by lia. unfold g.
    replace (k <=? m)%nat with false by (symmetry; apply Nat.leb_gt; lia). lra. }
  assert (S2 : forall m, (m <= length es - 1)%nat -> (k < m)%nat -> sum m g = g k).
  { induction m as [|m IH]; intros Hm Hkm; [lia|]. cbn [sum].
    destruct (Nat.eq_dec m k) as [->|Hne]; [rewrite S1 by lia; lra|]. rewrite IH by lia.
    assert (gm : g m = 0).
    { unfold g. replace (k <=? m)%nat with true by (symmetry; apply Nat.leb_le; lia).
      pose proof (Hlt k m ltac:(lia) ltac:(lia)). destruct (Rle_dec _ _); [lra|reflexivity]. }
    rewrite gm. lra. }
  rewrite S2 by lia. unfold g. rewrite Nat.leb_refl. destruct (Rle_dec _ _) as [_|N]; [reflexivity|]. exfalso. apply N. lra.
Qed.
Print Assumptions C77_background_own_bin.

(** HEALPix: pixel i of the result uses pixel i of the convolved map. *)
Theorem C77_background_healpix :
  forall es peak f npix conv data, energy_grid es -> 0 < f ->
  (forall k, (k < length es - 1)%nat -> peak (centre es k) <> 0) ->
  length conv = (length es - 1)%nat -> (forall k, (k < length es - 1)%nat -> (npix <= length (nth k conv []))%nat) ->
  length data = ((length es - 1) * npix)%nat ->
  exists out, makeBkgEffMap_hpx peak es npix f conv data = Ok out /\ length out = length data /\
    forall i k, (i < npix)%nat -> (k < length es - 1)%nat ->
      nth (k * npix + i) out 0 = effective es peak f (length es - 1) (fun k _ => nth i (nth k conv []) 0) k 0.
Proof.
  intros es peak f npix conv data Hes Hf Hp Hc1 Hc2 Hd.
  destruct (bkg_hpx_ok es peak f npix conv data Hes Hf Hp Hc1 Hc2 Hd) as (out & E & Hl & Hv).
  exists out. split; [exact E|]. split; [exact Hl|]. intros i k Hi Hk. rewrite Hv by auto. reflexivity.
Qed.
Print Assumptions C77_background_healpix.

(** A map of part of the sky: its first pixel is pixel 3 of the sphere, where the convolved map holds 40, but what is used
    is pixel 0, where it holds 10. *)
Theorem C77_partial_sky_refuted :
  let m := mk_hmap (Some 10) [3; 5]%nat [1; 2] [0; 0] in
  let conv := [[10; 20; 30; 40; 50; 60]] in
  localToGlobalIndex m 0 = Ok 3%Z /\ nth 3 (nth 0 conv []) 0 = 40 /\
  exists out, makeBkgEffMap_hpx (fun _ => 1) [1; 2] 2 1 conv [0; 0] = Ok out /\ nth 0 out 0 = 10.
Proof.
  cbv zeta. split; [|split].
  - unfold localToGlobalIndex, allSky. cbn [hm_radius obind]. destruct (Rleb_spec 180 10); [lra|]. reflexivity.
  - reflexivity.
  - destruct (C77_background_healpix [1; 2] (fun _ => 1) 1 2 [[10; 20; 30; 40; 50; 60]] [0; 0]) as (out & E & _ & Hv).
    + split; [cbn; lia|]. split; [cbn; lra|]. intros [|i] H; cbn in *; try lia; lra.
    + lra.
    + intros; lra.
    + reflexivity.
    + intros [|k] H; cbn in *; lia.
    + reflexivity.
    + exists out. split; [exact E|]. specialize (Hv 0%nat 0%nat ltac:(lia) ltac:(cbn; lia)). cbn [Nat.mul Nat.add] in Hv. rewrite Hv.
      unfold effective. cbn [length Nat.sub sum Nat.leb]. destruct (Rle_dec _ _) as [_|N]; [|exfalso; apply N; lra].
      unfold width. cbn. field.
Qed.
Print Assumptions C77_partial_sky_refuted.

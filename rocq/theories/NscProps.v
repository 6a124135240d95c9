(** C80/C180: scans of a normalisation. *)
From Coq Require Import Reals Lra ZArith List Bool Lia.
From Verif Require Import Base AccumModel AccumProofs NscModel NscSpec NscProofs.
Import ListNotations.
Local Open Scope R_scope.

(** A scan reports the best likelihood, and for each value of the normalisation the best likelihood with it fixed. *)
Theorem C80_scan : forall nebins like optimum uncertainty s signal i p kmin kmax nnorms s' sc,
  right like optimum -> (kmax <= nebins)%nat ->
  norm_of (st_pars s) signal = Some i -> nth_error (st_pars s) i = Some p ->
  allowed (freed (st_pars s) i p) (map pr_val (st_pars s)) ->
  scan_norm_binned nebins like optimum uncertainty s signal kmin kmax nnorms = Ok (s', sc) ->
  good_scan (like kmin kmax) (st_pars s) i p nnorms sc.
Proof. intros. eapply scan_ok; eassumption. Qed.
Print Assumptions C80_scan.

(** The values: equal steps, from ten standard deviations below the best one, but not below 1e-10, to ten above, but not
    below 2.5; the standard deviation is the first one the optimizer reports. *)
Theorem C80_grid : forall nebins like optimum uncertainty s signal i p kmin kmax nnorms s' sc,
  right like optimum -> (kmax <= nebins)%nat -> (2 <= nnorms)%nat ->
  norm_of (st_pars s) signal = Some i -> nth_error (st_pars s) i = Some p ->
  allowed (freed (st_pars s) i p) (map pr_val (st_pars s)) ->
  scan_norm_binned nebins like optimum uncertainty s signal kmin kmax nnorms = Ok (s', sc) ->
  exists err, nth_error (uncertainty kmin kmax (freed (st_pars s) i p)) 0 = Some err /\
    even_grid (Rmax (1 / 10 ^ 10) (sc_mle sc - 10 * err)) (Rmax (5 / 2) (sc_mle sc + 10 * err)) nnorms (sc_norms sc).
Proof.
  intros until sc. intros Hr Hk Hn Hi Ep Ha E. destruct (scan_ok _ _ _ _ _ _ _ _ _ _ _ _ _ Hr Hk Hi Ep Ha E) as (_ & (err & E1 & E2) & _).
  exists err. split; [exact E1|]. rewrite E2. now apply grid_even.
Qed.
Print Assumptions C80_grid.

(** If the range of the scan is within the bounds of the parameter, the scan succeeds. *)
Theorem C80_succeeds : forall nebins like optimum uncertainty s signal i p kmin kmax nnorms mle err,
  right like optimum -> (kmax <= nebins)%nat -> (2 <= nnorms)%nat ->
  norm_of (st_pars s) signal = Some i -> nth_error (st_pars s) i = Some p ->
  allowed (freed (st_pars s) i p) (map pr_val (st_pars s)) ->
  (length (filter pr_free (freed (st_pars s) i p)) <= length (uncertainty kmin kmax (freed (st_pars s) i p)))%nat ->
  nth_error (uncertainty kmin kmax (freed (st_pars s) i p)) 0 = Some err ->
  nth_error (optimum kmin kmax (freed (st_pars s) i p)) i = Some mle -> 0 <= err ->
  pr_lo p <= 1 / 10 ^ 10 -> 5 / 2 <= pr_hi p -> mle + 10 * err <= pr_hi p ->
  exists s' sc, scan_norm_binned nebins like optimum uncertainty s signal kmin kmax nnorms = Ok (s', sc) /\ sc_mle sc = mle.
Proof. exact scan_runs. Qed.
Print Assumptions C80_succeeds.

(** The spectrum: a scan for each energy bin, of the likelihood of that bin. *)
Theorem C80_sed : forall nebins like optimum uncertainty s signal i p nnorms s' scs,
  right like optimum -> norm_of (st_pars s) signal = Some i -> nth_error (st_pars s) i = Some p ->
  allowed (freed (st_pars s) i p) (map pr_val (st_pars s)) ->
  sed_binned nebins like optimum uncertainty s signal nnorms = Ok (s', scs) ->
  length scs = nebins /\
  forall ie sc, nth_error scs ie = Some sc -> good_scan (like ie (ie + 1)%nat) (st_pars s) i p nnorms sc.
Proof.
  intros until scs. intros Hr Hi Ep Ha E. unfold sed_binned in E.
  destruct (mfold _ (seq 0 nebins) (s, [])) as [(s1, scs1)| |] eqn:E1; cbn [obind fst snd] in E; try discriminate. injection E as <- <-.
  assert (En : nth i (st_pars s) p = p) by (apply nth_error_nth; exact Ep).
  destruct (sed_loop nebins like optimum uncertainty signal nnorms (st_pars s) i p Hr Ep Hi nebins (le_n _) s s1 scs1) as (L & G & _); auto.
  - rewrite En. apply same_all_refl.
  - congruence.
Qed.
Print Assumptions C80_sed.

(** Freezing everything: every parameter of the sources is fixed, and nothing else changes. *)
Theorem C80_freeze : forall names ps, (forall p, In p ps -> In (pr_src p) names) ->
  List.Forall2 (fun p q => pr_free q = false /\ pr_src q = pr_src p /\ pr_norm q = pr_norm p /\ pr_val q = pr_val p /\ pr_lo q = pr_lo p /\ pr_hi q = pr_hi p)
    ps (freezeAllParams names ps).
Proof.
  intros names ps H.
  assert (K : forall ns qs, freezeAllParams ns qs = map (fun p => if existsb (Z.eqb (pr_src p)) ns then set_free false p else p) qs).
  { unfold freezeAllParams. induction ns as [|n ns IH]; intros qs; cbn [fold_left existsb]; [now rewrite map_id|]. rewrite IH. unfold freezeSourceParams. rewrite map_map. apply map_ext. intros q.
    destruct (Z.eqb_spec (pr_src q) n); cbn [orb]; [|reflexivity]. cbn [set_free pr_src]. destruct (existsb _ ns); reflexivity. }
  rewrite K. clear K. induction ps as [|p ps IH]; cbn; constructor.
  - assert (E : existsb (Z.eqb (pr_src p)) names = true). { apply existsb_exists. exists (pr_src p). split; [apply H; now left|apply Z.eqb_refl]. }
    rewrite E. cbn. auto 10.
  - apply IH. intros q Hq. apply H. now right.
Qed.
Print Assumptions C80_freeze.

(** Freeing (or fixing) normalisations: those of the sources listed, nothing else. *)
Theorem C80_free : forall names ps free b, (forall n, In n free -> In n names) ->
  exists qs, freeNormalizations names ps free b = Ok qs /\
  List.Forall2 (fun p q => pr_src q = pr_src p /\ pr_norm q = pr_norm p /\ pr_val q = pr_val p /\ pr_lo q = pr_lo p /\ pr_hi q = pr_hi p /\
    (pr_norm p = true /\ In (pr_src p) free -> pr_free q = b) /\ (~ (pr_norm p = true /\ In (pr_src p) free) -> pr_free q = pr_free p)) ps qs.
Proof.
  intros names ps free b H.
  assert (K : forall fr qs, (forall n, In n fr -> In n names) -> freeNormalizations names qs fr b = Ok (map (fun p => if existsb (Z.eqb (pr_src p)) fr && pr_norm p then set_free b p else p) qs)).
  { unfold freeNormalizations. induction fr as [|n fr IH]; intros qs Hf; cbn [mfold existsb]; [cbn; now rewrite map_id|].
    assert (E : existsb (Z.eqb n) names = true). { apply existsb_exists. exists n. split; [apply Hf; now left|apply Z.eqb_refl]. }
    rewrite E. cbn [obind]. rewrite IH by (intros m Hm; apply Hf; now right). f_equal. rewrite map_map. apply map_ext. intros q.
    destruct (Z.eqb_spec (pr_src q) n); cbn [orb andb]; [|reflexivity]. destruct (pr_norm q) eqn:En; cbn [set_free pr_src pr_norm]; rewrite ?En; [|now rewrite andb_false_r].
    destruct (existsb _ fr); reflexivity. }
  rewrite K by exact H. eexists. split; [reflexivity|]. clear. induction ps as [|p ps IH]; cbn [map]; constructor; [|exact IH].
  destruct (existsb (Z.eqb (pr_src p)) free) eqn:E; destruct (pr_norm p) eqn:En; cbn [andb]; unfold set_free; cbn [pr_src pr_norm pr_val pr_lo pr_hi pr_free]; rewrite ?En; split; auto; split; auto; split; auto; split; auto; split; auto; split; auto.
  - intros N. exfalso. apply N. split; [reflexivity|]. apply existsb_exists in E. destruct E as (n & Hn & E). apply Z.eqb_eq in E. now subst.
  - intros (F & _). discriminate.
  - intros (_ & F). assert (X : existsb (Z.eqb (pr_src p)) free = true) by (apply existsb_exists; exists (pr_src p); split; [exact F|apply Z.eqb_refl]). congruence.
  - intros (F & _). discriminate.
Qed.
Print Assumptions C80_free.

(** ** A likelihood and an optimizer: the likelihood is best where all values are c. *)
Definition bowl (c : R) (xs : list R) : R := fold_right (fun x v => v - (x - c) * (x - c)) 0 xs.
Definition clamp (c lo hi : R) : R := Rmax lo (Rmin c hi).
Definition bowl_opt (c : R) (ps : list par) : list R := map (fun p => if pr_free p then clamp c (pr_lo p) (pr_hi p) else pr_val p) ps.
Lemma clamp_in c lo hi x : lo <= x <= hi -> lo <= clamp c lo hi <= hi /\ (clamp c lo hi - c) * (clamp c lo hi - c) <= (x - c) * (x - c).
Proof.
  intros H. assert (S : forall a b, (0 <= a <= b \/ b <= a <= 0) -> a * a <= b * b).
  { intros a b [K | K]; [apply Rmult_le_compat; lra|]. replace (a * a) with (- a * - a) by ring. replace (b * b) with (- b * - b) by ring. apply Rmult_le_compat; lra. }
  unfold clamp, Rmax, Rmin. destruct (Rle_dec c hi); destruct (Rle_dec lo _); (split; [lra|]); try (apply S; lra).
Qed.
Lemma bowl_right c : right (fun _ _ => bowl c) (fun _ _ => bowl_opt c).
Proof.
  intros _ _ ps Ha.
  assert (K : allowed ps (bowl_opt c ps) /\ forall xs, allowed ps xs -> bowl c xs <= bowl c (bowl_opt c ps)).
  { unfold allowed in *. revert Ha. generalize (map pr_val ps) as ys. induction ps as [|p ps IH]; intros ys Ha; inversion Ha as [|p1 y1 ps1 ys1 P1 P2]; subst.
    - split; [constructor|]. intros xs Hx. inversion Hx. cbn. lra.
    - destruct (IH _ P2) as (I1 & I2). split.
      + constructor; [|exact I1]. cbn beta. destruct (pr_free p); [|reflexivity]. eapply clamp_in; eassumption.
      + intros xs Hx. inversion Hx as [|p2 x2 ps2 xs2 Q1 Q2]; subst. cbn [bowl fold_right bowl_opt map]. fold (bowl c xs2). fold (bowl_opt c ps). fold (bowl c (bowl_opt c ps)).
        pose proof (I2 _ Q2) as I. destruct (pr_free p); [|subst; lra]. pose proof (proj2 (clamp_in c _ _ _ Q1)). lra. }
  destruct K as (K1 & K2). split; [exact K1|]. split; [exists (bowl_opt c ps); auto|exact K2].
Qed.

Lemma clamp_mid c lo hi : lo <= c <= hi -> clamp c lo hi = c.
Proof. intros H. unfold clamp. rewrite Rmin_left, Rmax_right; lra. Qed.

(** A fixed normalisation of source 7, between 0 and 10, after a free one of source 3. *)
Definition two : list par := [mk_par 3 true 4 true 0 10; mk_par 7 true 2 false 0 10].
Definition two_unc : list R := [1 / 8; 1 / 2].
Lemma two_run : exists s' sc,
  scan_norm_binned 5 (fun _ _ => bowl 1) (fun _ _ => bowl_opt 1) (fun _ _ _ => two_unc) (mk_state two 0 5) 7 1 3 4 = Ok (s', sc) /\ sc_mle sc = 1.
Proof.
  eapply C80_succeeds with (i := 1%nat) (p := mk_par 7 true 2 false 0 10) (mle := 1) (err := 1 / 8); cbn; try lra; try lia; try reflexivity.
  - apply bowl_right.
  - unfold allowed, freed, two. cbn. repeat constructor; cbn; lra.
  - f_equal. apply clamp_mid. lra.
Qed.
Lemma two_allowed : allowed (freed two 1 (mk_par 7 true 2 false 0 10)) (map pr_val two).
Proof. unfold allowed, freed, two. cbn. repeat constructor; cbn; lra. Qed.

Example C80_case : exists s' sc,
  scan_norm_binned 5 (fun _ _ => bowl 1) (fun _ _ => bowl_opt 1) (fun _ _ _ => two_unc) (mk_state two 0 5) 7 1 3 4 = Ok (s', sc) /\ sc_like sc = 0 /\ length (sc_likes sc) = 4%nat.
Proof.
  destruct two_run as (s' & sc & E & M). exists s', sc. split; [exact E|].
  destruct (C80_scan 5%nat _ _ _ (mk_state two 0 5) 7%Z 1%nat (mk_par 7 true 2 false 0 10) 1%nat 3%nat 4%nat _ _ (bowl_right 1) ltac:(lia) eq_refl eq_refl two_allowed E) as (G1 & G2 & G3 & G4). split.
  - destruct G1 as ((xs & X1 & X2) & X3). apply Rle_antisym.
    + rewrite <- X2. unfold allowed, freed, two in X1. cbn in X1. destruct xs as [|x [|y [|z xs]]]; cbn; try (inversion X1 as [|? ? ? ? _ X]; inversion X as [|? ? ? ? _ X']; inversion X'; fail); try lra; pose proof (Rle_0_sqr (x - 1)) as S1; unfold Rsqr in S1; try lra.
      * pose proof (Rle_0_sqr (y - 1)) as S2. unfold Rsqr in S2. lra.
      * inversion X1 as [|? ? ? ? _ X]. inversion X as [|? ? ? ? _ X']. inversion X'.
    + refine (Rle_trans _ _ _ _ (X3 [1; 1] _)); [cbn; lra|]. unfold allowed, freed, two. cbn. repeat constructor; cbn; lra.
  - rewrite <- (forall2_len _ _ _ G4). exact G3.
Qed.

(** ** What does not hold *)

(** The scan does not leave the model at the best values, nor as it found it: the normalisation stays at the last value
    of the scan, and if it was fixed it is free now. *)
Theorem C80_left_at_last_refuted : exists nebins like optimum uncertainty s signal i p s' sc p',
  right like optimum /\ norm_of (st_pars s) signal = Some i /\ nth_error (st_pars s) i = Some p /\
  scan_norm_binned nebins like optimum uncertainty s signal 1 3 4 = Ok (s', sc) /\ nth_error (st_pars s') i = Some p' /\
  pr_free p = false /\ pr_free p' = true /\ pr_val p = 2 /\ sc_mle sc = 1 /\ pr_val p' = 5 / 2.
Proof.
  destruct two_run as (s' & sc & E & M).
  destruct (scan_ok 5%nat _ _ _ (mk_state two 0 5) 7%Z 1%nat (mk_par 7 true 2 false 0 10) 1%nat 3%nat 4%nat _ _ (bowl_right 1) ltac:(lia) eq_refl eq_refl two_allowed E) as (_ & (err & E1 & E2) & _ & _ & (p' & P1 & P2 & P3)).
  exists 5%nat, (fun _ _ => bowl 1), (fun _ _ => bowl_opt 1), (fun _ _ _ => two_unc), (mk_state two 0 5), 7%Z, 1%nat, (mk_par 7 true 2 false 0 10), s', sc, p'.
  split; [apply bowl_right|]. split; [reflexivity|]. split; [reflexivity|]. split; [exact E|]. split; [exact P1|]. split; [reflexivity|]. split; [exact P2|].
  split; [reflexivity|]. split; [exact M|]. rewrite P3, E2, M. cbn in E1. injection E1 as <-. unfold norms_of.
  rewrite (Rmax_left (5 / 2)) by lra. rewrite (Rmax_left (1 / 10 ^ 10)) by lra. cbn [grid last]. replace (INR 4) with 4 by (cbn; lra). field.
Qed.
Print Assumptions C80_left_at_last_refuted.

(** The range of the scan is that of the standard deviation of the first free parameter, not of the one scanned: here
    1/8 of another source instead of 1/2, so the scan ends at 2.5 instead of 6. *)
Theorem C80_first_error_refuted : exists nebins like optimum (unc : list R) s signal i p s' sc,
  right like optimum /\ norm_of (st_pars s) signal = Some i /\ nth_error (st_pars s) i = Some p /\
  map pr_free (freed (st_pars s) i p) = [true; true] /\ unc = [1 / 8; 1 / 2] /\ i = 1%nat /\
  scan_norm_binned nebins like optimum (fun _ _ _ => unc) s signal 1 3 4 = Ok (s', sc) /\
  sc_mle sc + 10 * nth i unc 0 = 6 /\ last (sc_norms sc) 0 = 5 / 2.
Proof.
  destruct two_run as (s' & sc & E & M).
  destruct (C80_grid 5%nat _ _ _ (mk_state two 0 5) 7%Z 1%nat (mk_par 7 true 2 false 0 10) 1%nat 3%nat 4%nat _ _ (bowl_right 1) ltac:(lia) ltac:(lia) eq_refl eq_refl two_allowed E) as (err & E1 & (G1 & G2 & G3 & G4)).
  exists 5%nat, (fun _ _ => bowl 1), (fun _ _ => bowl_opt 1), two_unc, (mk_state two 0 5), 7%Z, 1%nat, (mk_par 7 true 2 false 0 10), s', sc.
  split; [apply bowl_right|]. split; [reflexivity|]. split; [reflexivity|]. split; [reflexivity|]. split; [reflexivity|]. split; [reflexivity|]. split; [exact E|].
  split; [rewrite M; cbn; lra|]. cbn in E1. injection E1 as <-. rewrite M in G3. rewrite (Rmax_left (5 / 2)) in G3 by lra.
  destruct (sc_norms sc) as [|a [|b [|c [|d [|e l]]]]]; cbn in G1; try lia. exact G3.
Qed.
Print Assumptions C80_first_error_refuted.

(** A parameter whose upper bound is below 2.5 cannot be scanned, wherever its best value is. *)
Theorem C80_bounds_refuted : exists nebins like optimum uncertainty s signal i p,
  right like optimum /\ norm_of (st_pars s) signal = Some i /\ nth_error (st_pars s) i = Some p /\
  allowed (freed (st_pars s) i p) (map pr_val (st_pars s)) /\ pr_val p = 1 /\ pr_lo p = 0 /\ pr_hi p = 2 /\
  forall kmin kmax nnorms, (kmax <= nebins)%nat -> (2 <= nnorms)%nat -> forall s' sc,
  scan_norm_binned nebins like optimum uncertainty s signal kmin kmax nnorms <> Ok (s', sc).
Proof.
  exists 5%nat, (fun _ _ => bowl 1), (fun _ _ => bowl_opt 1), (fun _ _ _ => [1 / 100]), (mk_state [mk_par 7 true 1 true 0 2] 0 5), 7%Z, 0%nat, (mk_par 7 true 1 true 0 2).
  assert (A : allowed (freed [mk_par 7 true 1 true 0 2] 0 (mk_par 7 true 1 true 0 2)) (map pr_val [mk_par 7 true 1 true 0 2])) by (unfold allowed, freed; cbn; repeat constructor; cbn; lra).
  split; [apply bowl_right|]. split; [reflexivity|]. split; [reflexivity|]. split; [exact A|]. split; [reflexivity|]. split; [reflexivity|]. split; [reflexivity|].
  intros kmin kmax nnorms Hk Hn s' sc E.
  destruct (C80_grid 5%nat _ _ _ (mk_state [mk_par 7 true 1 true 0 2] 0 5) 7%Z 0%nat (mk_par 7 true 1 true 0 2) kmin kmax nnorms _ _ (bowl_right 1) Hk Hn eq_refl eq_refl A E) as (err & E1 & (G1 & G2 & G3 & G4)).
  destruct (scan_ok 5%nat _ _ _ (mk_state [mk_par 7 true 1 true 0 2] 0 5) 7%Z 0%nat (mk_par 7 true 1 true 0 2) kmin kmax nnorms _ _ (bowl_right 1) Hk eq_refl eq_refl A E) as (_ & _ & _ & A2 & (p' & P1 & P2 & P3)).
  assert (L : last (sc_norms sc) (sc_mle sc) = nth (nnorms - 1) (sc_norms sc) 0).
  { rewrite <- G1. clear - G1 Hn. assert (0 < length (sc_norms sc))%nat by lia. clear G1. induction (sc_norms sc) as [|a l IH]; cbn in H; [lia|]. destruct l as [|b l]; [reflexivity|]. cbn [last length] in *. rewrite IH by lia. cbn. replace (length l - 0)%nat with (length l) by lia. reflexivity. }
  rewrite L, G3 in P3. pose proof (Rmax_l (5 / 2) (sc_mle sc + 10 * err)) as X. rewrite <- P3 in X. destruct (st_pars s') as [|q qs]; [discriminate|]. cbn in P1. injection P1 as ->.
  unfold allowed, freed in A2. cbn in A2. inversion A2; subst. cbn in H2. lra.
Qed.
Print Assumptions C80_bounds_refuted.

(** After the spectrum the energy limits are one too large: the likelihood reads beyond its counts. *)
Theorem C80_klims_refuted : exists nebins like optimum uncertainty s signal s' scs,
  right like optimum /\ st_kmin s = 0%nat /\ st_kmax s = nebins /\ value nebins like s <> UB /\
  sed_binned nebins like optimum uncertainty s signal 2 = Ok (s', scs) /\ value nebins like s' = UB.
Proof.
  set (s := mk_state [mk_par 7 true 1 true 0 10] 0 1).
  assert (R1 : exists s1 sc, scan_norm_binned 1 (fun _ _ => bowl 1) (fun _ _ => bowl_opt 1) (fun _ _ _ => [1 / 100]) s 7 0 1 2 = Ok (s1, sc) /\ sc_mle sc = 1).
  { eapply C80_succeeds with (i := 0%nat) (p := mk_par 7 true 1 true 0 10) (mle := 1) (err := 1 / 100); cbn; try lra; try lia; try reflexivity.
    - apply bowl_right.
    - unfold allowed, freed. cbn. repeat constructor; cbn; lra.
    - f_equal. apply clamp_mid. lra. }
  destruct R1 as (s1 & sc & E & _).
  exists 1%nat, (fun _ _ => bowl 1), (fun _ _ => bowl_opt 1), (fun _ _ _ => [1 / 100]), s, 7%Z, (set_klims s1 0 2), [sc].
  split; [apply bowl_right|]. split; [reflexivity|]. split; [reflexivity|]. split; [discriminate|]. split.
  - unfold sed_binned. cbn [seq mfold]. cbn [fst snd plus]. rewrite E. reflexivity.
  - reflexivity.
Qed.
Print Assumptions C80_klims_refuted.

(** A sum of likelihoods: whatever limits are asked for, every component gets an empty range. *)
Theorem C80_summed_klims_refuted : forall table kmin kmax i a b, set_klims_summed table kmin kmax i = Ok (a, b) -> a = b.
Proof.
  intros table kmin kmax i a b E. unfold set_klims_summed in E. destruct (vec_get table kmin) as [row| |]; cbn [obind] in E; try discriminate.
  destruct (vec_get row i) as [k| |]; cbn [obind] in E; try discriminate. destruct (k <? 0)%Z; cbn [orb] in E; injection E as <- <-; reflexivity.
Qed.
Print Assumptions C80_summed_klims_refuted.
Example C80_summed_klims_case : set_klims_summed [[0; 1]; [1; 2]; [2; 3]]%Z 1 2 0 = Ok (1, 1)%nat. Proof. reflexivity. Qed.

(** An unknown source is a null pointer that is used. *)
Theorem C80_unknown_refuted : exists nebins like optimum uncertainty s signal, right like optimum /\ st_pars s <> [] /\
  forall kmin kmax nnorms, scan_norm_binned nebins like optimum uncertainty s signal kmin kmax nnorms = UB.
Proof.
  exists 5%nat, (fun _ _ => bowl 1), (fun _ _ => bowl_opt 1), (fun _ _ _ => []), (mk_state two 0 5), 8%Z. split; [apply bowl_right|]. split; [discriminate|]. reflexivity.
Qed.
Print Assumptions C80_unknown_refuted.

(** With no uncertainty and a best value of 2.5 or more the scan has only one value, repeated. *)
Theorem C80_flat_refuted : exists nebins like optimum uncertainty s signal s' sc, right like optimum /\
  scan_norm_binned nebins like optimum uncertainty s signal 0 1 3 = Ok (s', sc) /\ sc_norms sc = [3; 3; 3].
Proof.
  set (s := mk_state [mk_par 7 true 1 true 0 10] 0 1).
  assert (R1 : exists s1 sc, scan_norm_binned 1 (fun _ _ => bowl 3) (fun _ _ => bowl_opt 3) (fun _ _ _ => [0]) s 7 0 1 3 = Ok (s1, sc) /\ sc_mle sc = 3).
  { eapply C80_succeeds with (i := 0%nat) (p := mk_par 7 true 1 true 0 10) (mle := 3) (err := 0); cbn; try lra; try lia; try reflexivity.
    - apply bowl_right.
    - unfold allowed, freed. cbn. repeat constructor; cbn; lra.
    - f_equal. apply clamp_mid. lra. }
  destruct R1 as (s1 & sc & E & M).
  assert (A : allowed (freed (st_pars s) 0 (mk_par 7 true 1 true 0 10)) (map pr_val (st_pars s))) by (unfold allowed, freed; cbn; repeat constructor; cbn; lra).
  destruct (scan_ok 1%nat _ _ _ s 7%Z 0%nat (mk_par 7 true 1 true 0 10) 0%nat 1%nat 3%nat _ _ (bowl_right 3) ltac:(lia) eq_refl eq_refl A E) as (_ & (err & E1 & E2) & _).
  exists 1%nat, (fun _ _ => bowl 3), (fun _ _ => bowl_opt 3), (fun _ _ _ => [0]), s, 7%Z, s1, sc. split; [apply bowl_right|]. split; [exact E|].
  rewrite E2, M. cbn in E1. injection E1 as <-. unfold norms_of. rewrite !Rmax_right by lra. cbn [grid]. repeat (f_equal; try lra).
Qed.
Print Assumptions C80_flat_refuted.

(** C79/C179: spectra of counts. *)
From Coq Require Import Reals Lra String List Bool Lia.
From Verif Require Import Base AccumModel AccumProofs EvtModel EvtSpec EvtProofs EvtProps CmapProofs CspModel CspSpec CspProofs.
Import ListNotations.
Open Scope string_scope.
Open Scope list_scope.
Open Scope nat_scope.

(** *** Energy bounds *)
Theorem C79_bounds :
  forall c emin emax n, cs_binned c = false -> (0 < emin < emax)%R -> 2 <= n ->
  exists eb, setEbounds c emin emax n = Ok (mk_spectra false eb) /\ log_bounds emin emax n eb /\ increasing eb.
Proof.
  intros c emin emax n Hc H Hn. rewrite bounds_any by exact Hc.
  destruct (bounds_ok emin emax n) as (eb & E & Hb & _); [lra|lra|exact Hn|]. exists eb. split; [exact E|]. split; [exact Hb|].
  eapply log_increasing; eauto.
Qed.
Print Assumptions C79_bounds.

(** A binned likelihood keeps its own energies. *)
Theorem C79_binned_bounds :
  forall es emin emax n, setEbounds (new_spectra (Some es)) emin emax n = Throw /\ cs_ebounds (new_spectra (Some es)) = es.
Proof. intros. split; reflexivity. Qed.
Print Assumptions C79_binned_bounds.

(** *** Counts and fluxes *)
Theorem C79_source_counts :
  forall sources npred mcounts c n p, lookup sources n = Some p -> cs_ebounds c <> [] ->
  exists l, getSrcCounts sources npred mcounts c n = Ok l /\
    (cs_binned c = true -> l = mcounts n) /\ (cs_binned c = false -> binned_values (cs_ebounds c) (npred n) l).
Proof.
  intros sources npred mcounts c n p E H. unfold getSrcCounts. rewrite E. destruct (cs_ebounds c) as [|e es] eqn:Eb; [congruence|]. rewrite <- Eb.
  destruct (cs_binned c).
  - eexists. split; [reflexivity|]. split; [auto|discriminate].
  - rewrite per_bin_ok. eexists. split; [reflexivity|]. split; [discriminate|]. intros _. apply map_values.
Qed.
Print Assumptions C79_source_counts.

(** Logarithmic bounds of any number: the counts of a source sum up to what it predicts in the whole range. *)
Theorem C79_counts_add_up :
  forall sources npred mcounts n p emin emax nb, lookup sources n = Some p -> additive (npred n) -> (0 < emin < emax)%R -> 2 <= nb ->
  exists c l, setEbounds (new_spectra None) emin emax nb = Ok c /\ getSrcCounts sources npred mcounts c n = Ok l /\
    length l = nb - 1 /\ total l = npred n emin emax.
Proof.
  intros sources npred mcounts n p emin emax nb E A H Hn.
  destruct (C79_bounds (new_spectra None) emin emax nb eq_refl H Hn) as (eb & Eb & (L & H0 & H1 & Hs) & I).
  destruct (C79_source_counts sources npred mcounts (mk_spectra false eb) n p E) as (l & El & _ & V).
  { cbn. intros ->. cbn in L. lia. }
  specialize (V eq_refl). cbn [cs_ebounds] in V. exists (mk_spectra false eb), l. split; [exact Eb|]. split; [exact El|].
  split; [destruct V; congruence|]. rewrite (additive_sum _ _ _ A I V) by lia. rewrite H0, L, H1. reflexivity.
Qed.
Print Assumptions C79_counts_add_up.
Example C79_case_additive : additive (fun a b => b - a)%R. Proof. intros a b c H. lra. Qed.

Theorem C79_source_fluxes :
  forall sources flux c n, cs_ebounds c <> [] ->
  (lookup sources n = Some true -> exists l, getSrcFluxes sources flux c n = Ok l /\ binned_values (cs_ebounds c) (flux n) l) /\
  (lookup sources n <> Some true -> getSrcFluxes sources flux c n = Throw).
Proof.
  intros sources flux c n H. unfold getSrcFluxes. destruct (cs_ebounds c) as [|e es] eqn:Eb; [congruence|]. rewrite <- Eb. split.
  - intros E. rewrite E. rewrite per_bin_ok. eexists. split; [reflexivity|]. apply map_values.
  - intros E. destruct (lookup sources n) as [[]|]; congruence.
Qed.
Print Assumptions C79_source_fluxes.

(** The total is the sum over all sources, in every bin. *)
Theorem C79_total :
  forall sources npred mcounts c, sources <> [] -> (forall p, In p sources -> lookup sources (fst p) = Some (snd p)) -> cs_ebounds c <> [] ->
  (cs_binned c = true -> forall p, In p sources -> length (mcounts (fst p)) = length (cs_ebounds c) - 1) ->
  exists tot, getTotalSrcCounts sources npred mcounts c = Ok tot /\ length tot = length (cs_ebounds c) - 1 /\
    exists v, (forall p, In p sources -> getSrcCounts sources npred mcounts c (fst p) = Ok (v (fst p))) /\
      forall k, nth k tot 0%R = total (map (fun p => nth k (v (fst p)) 0%R) sources).
Proof.
  intros sources npred mcounts c Hne Hl Hb Hm. unfold getTotalSrcCounts.
  set (v := fun n => if cs_binned c then mcounts n else map (fun k => npred n (nth k (cs_ebounds c) 0%R) (nth (S k) (cs_ebounds c) 0%R)) (seq 0 (length (cs_ebounds c) - 1))).
  assert (V : forall p, In p sources -> getSrcCounts sources npred mcounts c (fst p) = Ok (v (fst p)) /\ length (v (fst p)) = length (cs_ebounds c) - 1).
  { intros p Hp. destruct (C79_source_counts sources npred mcounts c (fst p) (snd p) (Hl p Hp) Hb) as (l & E & E1 & E2). rewrite E. unfold v.
    destruct (cs_binned c) eqn:Ec.
    - rewrite E1 by reflexivity. split; [reflexivity|]. now apply Hm.
    - split; [|now rewrite map_length, seq_length]. f_equal. eapply values_unique; [apply E2; reflexivity|]. apply map_values. }
  destruct sources as [|p0 ps]; [congruence|]. cbn [map]. destruct (V p0 (or_introl eq_refl)) as (E0 & L0). rewrite E0. cbn [obind].
  destruct (add_all_ok (getSrcCounts (p0 :: ps) npred mcounts c) v (map fst ps) (v (fst p0))) as (r & Er & Lr & Hr).
  { intros n Hn. apply in_map_iff in Hn as (p & <- & Hp). destruct (V p (or_intror Hp)) as (E & L). split; [exact E|]. now rewrite L0. }
  exists r. split; [exact Er|]. split; [congruence|]. exists v. split; [intros p Hp; apply V, Hp|].
  intros k. rewrite Hr. rewrite map_map. reflexivity.
Qed.
Print Assumptions C79_total.
Definition case_sources : list (string * bool) := [("a", true); ("b", false)].
Example C79_case_sources : forall p, In p case_sources -> lookup case_sources (fst p) = Some (snd p).
Proof. intros p [<- | [<- | []]]; reflexivity. Qed.

(** The events in each bin are counted, each event of the range once. *)
Theorem C79_observed :
  forall dcounts events emin emax n, (0 < emin < emax)%R -> 2 <= n ->
  exists c out, setEbounds (new_spectra None) emin emax n = Ok c /\ getObsCounts dcounts events c = Ok out /\ length out = n - 1 /\
    (forall i, i < n - 1 -> exists sel, selection (fun e => in_bin (cs_ebounds c) i (ne_energy e)) events sel /\ nth i out 0%R = INR (length sel)) /\
    (exists sel, selection (fun e => (emin <= ne_energy e <= emax)%R) events sel /\ total out = INR (length sel)).
Proof.
  intros dcounts events emin emax n H Hn.
  destruct (C79_bounds (new_spectra None) emin emax n eq_refl H Hn) as (eb & Eb & (L & H0 & H1 & _) & I).
  destruct (C27_nobs eb events I ltac:(lia)) as (out & E & Lo & Hi & (sel & Hs & Ht)).
  exists (mk_spectra false eb), out. split; [exact Eb|]. split.
  { unfold getObsCounts. cbn [cs_binned cs_ebounds]. destruct eb; [cbn in L; lia|exact E]. }
  split; [congruence|]. split; [intros i Hi'; apply Hi; lia|]. exists sel. split; [|exact Ht].
  rewrite L, H0, H1 in Hs. exact Hs.
Qed.
Print Assumptions C79_observed.

(** *** The file *)
(** What is written, whatever the file held before: counts, fluxes of the point sources, energy bounds. *)
Theorem C79_table :
  forall sources npred flux mcounts dcounts events c old obs, (forall p, In p sources -> lookup sources (fst p) = Some (snd p)) ->
  cs_ebounds c <> [] -> getObsCounts dcounts events c = Ok obs -> length obs = length (cs_ebounds c) - 1 ->
  (cs_binned c = true -> forall p, In p sources -> length (mcounts (fst p)) = length (cs_ebounds c) - 1) ->
  exists rows1 rows2 rows3, writeTable sources npred flux mcounts dcounts events c old
    = (Some [mk_ext "COUNTS_SPECTRA" ("ObsCounts" :: map fst sources) rows1; mk_ext "FLUXES" (map fst (filter snd sources)) rows2; mk_ext "EBOUNDS" ["E_MIN"; "E_MAX"] rows3], Ok tt) /\
    length rows1 = length (cs_ebounds c) - 1 /\ length rows3 = length (cs_ebounds c) - 1 /\
    (forall k, k < length (cs_ebounds c) - 1 ->
       nth k rows3 [] = [nth k (cs_ebounds c) 0%R; nth (S k) (cs_ebounds c) 0%R] /\
       nth k rows1 [] = nth k obs 0%R :: map (fun p => if cs_binned c then nth k (mcounts (fst p)) 0%R else npred (fst p) (nth k (cs_ebounds c) 0%R) (nth (S k) (cs_ebounds c) 0%R)) sources /\
       (filter snd sources <> [] -> length rows2 = length (cs_ebounds c) - 1 /\
          nth k rows2 [] = map (fun p => flux (fst p) (nth k (cs_ebounds c) 0%R) (nth (S k) (cs_ebounds c) 0%R)) (filter snd sources))).
Proof.
  intros sources npred flux mcounts dcounts events c old obs Hl Hb Ho Lo Hm.
  assert (M : forall X (a b : X), match cs_ebounds c with [] => a | _ :: _ => b end = b) by (intros; destruct (cs_ebounds c); [congruence|reflexivity]).
  set (eb := cs_ebounds c) in *. set (N := length eb - 1) in *.
  assert (NTH : forall {B} (g : nat -> B) (d : B) k, k < N -> nth k (map g (seq 0 N)) d = g k).
  { intros B g d k Hk. rewrite nth_indep with (d' := g 0) by (rewrite map_length, seq_length; lia). rewrite map_nth, seq_nth by lia. reflexivity. }
  set (v := fun n => if cs_binned c then mcounts n else map (fun k => npred n (nth k eb 0%R) (nth (S k) eb 0%R)) (seq 0 N)).
  assert (V : forall p, In p sources -> getSrcCounts sources npred mcounts c (fst p) = Ok (v (fst p)) /\ length (v (fst p)) = N).
  { intros p Hp. destruct (C79_source_counts sources npred mcounts c (fst p) (snd p) (Hl p Hp) Hb) as (l & E & E1 & E2). rewrite E. unfold v.
    destruct (cs_binned c) eqn:Ec.
    - rewrite E1 by reflexivity. split; [reflexivity|]. now apply Hm.
    - split; [|now rewrite map_length, seq_length]. f_equal. eapply values_unique; [apply E2; reflexivity|]. apply map_values. }
  assert (E1 : writeCounts sources npred mcounts dcounts events c = (mk_ext "COUNTS_SPECTRA" ("ObsCounts" :: map fst sources)
     (map (fun k => nth k obs 0%R :: map (fun w => nth k w 0%R) (map v (map fst sources))) (seq 0 N)), Ok tt)).
  { unfold writeCounts. rewrite Ho. cbn [obind]. rewrite (collect_ok _ v).
    - cbn [obind]. rewrite M. fold eb. fold N.
      rewrite (collect_ok _ (fun k => nth k obs 0%R :: map (fun w => nth k w 0%R) (map v (map fst sources)))); [reflexivity|].
      intros k Hk. apply in_seq in Hk. rewrite (vec_at_ok obs k 0%R) by lia. cbn [obind]. rewrite (collect_ok _ (fun w => nth k w 0%R)); [reflexivity|].
      intros w Hw. apply in_map_iff in Hw as (n & <- & Hn). apply in_map_iff in Hn as (p & <- & Hp). destruct (V p Hp) as (_ & L). apply vec_at_ok. lia.
    - intros n Hn. apply in_map_iff in Hn as (p & <- & Hp). apply V, Hp. }
  set (fl := fun n => map (fun k => flux n (nth k eb 0%R) (nth (S k) eb 0%R)) (seq 0 N)).
  assert (E2 : exists rows2, writeFluxes sources flux c = (mk_ext "FLUXES" (map fst (filter snd sources)) rows2, Ok tt) /\
     (filter snd sources <> [] -> rows2 = map (fun k => map (fun w => nth k w 0%R) (map fl (map fst (filter snd sources)))) (seq 0 N))).
  { unfold writeFluxes. rewrite (collect_ok _ fl).
    - cbn [obind]. rewrite !map_length. destruct (Nat.eqb_spec (length (filter snd sources)) 0) as [Z|Z].
      + eexists. split; [reflexivity|]. destruct (filter snd sources); [congruence|discriminate].
      + fold eb N. rewrite (collect_ok _ (fun k => map (fun w => nth k w 0%R) (map fl (map fst (filter snd sources))))).
        * eexists. split; [reflexivity|]. auto.
        * intros k Hk. apply in_seq in Hk. apply collect_ok. intros w Hw. apply in_map_iff in Hw as (n & <- & _). apply vec_at_ok. unfold fl. rewrite map_length, seq_length. lia.
    - intros n Hn. apply in_map_iff in Hn as (p & <- & Hp). apply filter_In in Hp as (Hp & Hp2).
      destruct (C79_source_fluxes sources flux c (fst p) Hb) as (F & _). destruct F as (l & El & Vl); [rewrite Hl, Hp2 by exact Hp; reflexivity|].
      rewrite El. f_equal. eapply values_unique; [exact Vl|]. apply map_values. }
  destruct E2 as (rows2 & E2 & R2).
  assert (E3 : writeEbounds c = (mk_ext "EBOUNDS" ["E_MIN"; "E_MAX"] (map (fun k => [nth k eb 0%R; nth (S k) eb 0%R]) (seq 0 N)), Ok tt)).
  { unfold writeEbounds. fold eb N. rewrite (collect_ok _ (fun k => [nth k eb 0%R; nth (S k) eb 0%R])); [reflexivity|]. intros k Hk. apply in_seq in Hk.
    rewrite (vec_at_ok eb k 0%R) by lia. cbn [obind]. rewrite (vec_at_ok eb (k + 1) 0%R) by lia. cbn [obind]. now rewrite Nat.add_1_r. }
  eexists _, rows2, _. split; [unfold writeTable; rewrite E1, E2, E3; reflexivity|].
  split; [now rewrite map_length, seq_length|]. split; [now rewrite map_length, seq_length|]. intros k Hk.
  rewrite !NTH by exact Hk. split; [reflexivity|]. split.
  - f_equal. rewrite !map_map. apply map_ext_in. intros p Hp. unfold v. destruct (cs_binned c); [reflexivity|]. now rewrite NTH.
  - intros Hf. rewrite (R2 Hf), map_length, seq_length. split; [reflexivity|]. rewrite NTH by exact Hk. rewrite !map_map. apply map_ext. intros p. unfold fl. now rewrite NTH.
Qed.
Print Assumptions C79_table.
Example C79_case_table : let c := mk_spectra true [1; 2; 4]%R in
  cs_ebounds c <> [] /\ getObsCounts [5; 6]%R [] c = Ok [5; 6]%R /\ forall p, In p case_sources -> length ((fun _ : string => [1; 2]%R) (fst p)) = length (cs_ebounds c) - 1.
Proof. cbn. split; [discriminate|]. split; [reflexivity|]. reflexivity. Qed.

(** *** The data of a binned likelihood *)
Theorem C79_data_spectrum :
  forall nx ny nz data, length data = nz * (ny * nx) ->
  exists l, computeCountsSpectrum_wcs nx ny nz data = Ok l /\ computeCountsSpectrum_healpix (ny * nx) nz data = Ok l /\ length l = nz /\
    (forall k, k < nz -> nth k l 0%R = total (map (fun p => nth (k * (ny * nx) + p) data 0%R) (seq 0 (ny * nx)))) /\ total l = total data.
Proof.
  intros nx ny nz data L. rewrite spectrum_wcs by exact L. rewrite spectrum_healpix by exact L. eexists. split; [reflexivity|]. split; [reflexivity|].
  split; [now rewrite map_length, seq_length|]. split.
  - intros k Hk. rewrite nth_indep with (d' := part data (0 * (ny * nx)) (ny * nx)) by (rewrite map_length, seq_length; lia).
    rewrite (map_nth (fun k => part data (k * (ny * nx)) (ny * nx))), seq_nth by lia. cbn [Nat.add]. unfold part. f_equal.
    assert (G : forall n i, map (fun p => nth p data 0%R) (seq i n) = map (fun p => nth (i + p) data 0%R) (seq 0 n)).
    { induction n as [|n IH]; intros i; [reflexivity|]. rewrite seq_S', map_app, <- IH, seq_S, map_app. reflexivity. }
    apply G.
  - now rewrite parts_total, <- L, part_all.
Qed.
Print Assumptions C79_data_spectrum.

(** The counts in the filled pixels of an energy are shared out completely among the sources. *)
Theorem C79_attributed :
  forall d kmin kmax css counts model, good d -> kmin <= kmax <= c_nebins d -> (forall cs, In cs css -> length cs = length (c_filled d)) ->
  length counts = length (c_filled d) -> (forall j, nth j counts 0%R = total (map (fun cs => nth j cs 0%R) css)) ->
  current_model d kmin kmax counts = Ok model -> (forall k j, kmin <= k < kmax -> in_energy d k j -> (0 < nth j counts 0)%R) ->
  exists out, (forall cs, In cs css -> countsSpectrum d kmin kmax true model cs = Ok (out cs) /\ length (out cs) = kmax - kmin) /\
    forall k, kmin <= k < kmax -> total (map (fun cs => nth (k - kmin) (out cs) 0%R) css) = filled_counts d k.
Proof.
  intros d kmin kmax css counts model Hd (H1 & H2) Hlen Lc Hsum Hmod Hpos.
  destruct (model_ok d Hd kmin kmax counts H1 H2 Lc) as (m & E & Lm & Hm). rewrite E in Hmod. injection Hmod as ->.
  assert (In_ : forall k j, kmin <= k < kmax -> in_energy d k j -> nth j model 0%R = nth j counts 0%R).
  { intros k j Hk (Ha & Hb). rewrite Hm. pose proof (first_mono d Hd kmin k ltac:(lia) ltac:(lia)). pose proof (first_mono d Hd (S k) kmax ltac:(lia) ltac:(lia)).
    destruct (Nat.leb_spec (nth kmin (c_first d) 0) j), (Nat.ltb_spec j (nth kmax (c_first d) 0)); cbn; try reflexivity; lia. }
  exists (fun cs => map (share_of d model cs) (seq kmin (kmax - kmin))). split.
  - intros cs Hcs. split; [|now rewrite map_length, seq_length]. apply (counts_ok d Hd kmin kmax true kmin kmax); auto.
    intros k j Hk Hj. rewrite (In_ k j Hk Hj). specialize (Hpos k j Hk Hj). lra.
  - intros k Hk. rewrite <- (shares_total d model css k).
    + f_equal. apply map_ext. intros cs. rewrite nth_indep with (d' := share_of d model cs 0) by (rewrite map_length, seq_length; lia).
      rewrite (map_nth (share_of d model cs)), seq_nth by lia. f_equal. lia.
    + intros j Hj. rewrite (In_ k j Hk Hj). split; [specialize (Hpos k j Hk Hj); lra|apply Hsum].
Qed.
Print Assumptions C79_attributed.
Definition case_cache : cache := mk_cache [0; 1; 3] [1; 0; 1] [0; 4; 2; 3]%R 2 2.
Example C79_case_cache : good case_cache /\ filled_counts case_cache 1 = 5%R.
Proof.
  split; [constructor; cbn; auto|].
  - intros [|[|k]] H; cbn; lia.
  - intros [|[|[|j]]] H; cbn; lia.
  - unfold filled_counts, total. cbn. lra.
Qed.

(** *** Where it fails *)
(** No bounds asked for: memory is filled until an exception. *)
Theorem C79_zero_bounds_refuted : forall c emin emax, setEbounds c emin emax 0 = Throw.
Proof. intros [[] eb] emin emax; reflexivity. Qed.
Print Assumptions C79_zero_bounds_refuted.

(** One bound asked for is accepted: it is emax, there is no bin, and nothing is counted. *)
Theorem C79_one_bound_refuted :
  forall sources npred mcounts emin emax n p, lookup sources n = Some p ->
  setEbounds (new_spectra None) emin emax 1 = Ok (mk_spectra false [emax]) /\ getSrcCounts sources npred mcounts (mk_spectra false [emax]) n = Ok [].
Proof. intros. split; [reflexivity|]. unfold getSrcCounts. rewrite H. reflexivity. Qed.
Print Assumptions C79_one_bound_refuted.

(** Bounds given in the wrong order are accepted, and no event is counted. *)
Theorem C79_reversed_refuted :
  forall dcounts events emin emax n, (0 < emax < emin)%R -> 2 <= n ->
  exists c, setEbounds (new_spectra None) emin emax n = Ok c /\ getObsCounts dcounts events c = Ok (repeat 0%R (n - 1)).
Proof.
  intros dcounts events emin emax n H Hn. destruct (bounds_ok emin emax n) as (eb & E & (L & H0 & H1 & _) & _); [lra|lra|exact Hn|].
  exists (mk_spectra false eb). split; [exact E|]. unfold getObsCounts. cbn [cs_binned cs_ebounds]. destruct eb as [|x eb'] eqn:Eeb; [cbn in L; lia|]. rewrite <- Eeb in *.
  unfold nobs. rewrite Eeb at 1. rewrite L. generalize (repeat 0%R (n - 1)). intros acc.
  induction events as [|e es IH]; [reflexivity|]. cbn [mfold].
  assert (Z : nobs_event eb None acc e = Ok acc).
  { unfold nobs_event, front, back. rewrite (vec_get_ok eb 0 0%R) by lia. cbn [obind]. rewrite Eeb at 1. rewrite (vec_get_ok eb (length eb - 1) 0%R) by lia. cbn [obind].
    rewrite H0, L, H1. destruct (Rltb_spec (ne_energy e) emin); [reflexivity|]. destruct (Rltb_spec emax (ne_energy e)); [reflexivity|lra]. }
  rewrite Z. cbn [obind]. apply IH.
Qed.
Print Assumptions C79_reversed_refuted.

(** Writing before the bounds are set: an exception, after the file that was there has been removed. *)
Theorem C79_file_lost_refuted :
  forall sources npred flux mcounts dcounts events old,
  writeTable sources npred flux mcounts dcounts events (new_spectra None) old = (Some [mk_ext "COUNTS_SPECTRA" [] []], Throw).
Proof. reflexivity. Qed.
Print Assumptions C79_file_lost_refuted.

(** The counts of a source at all energies while the fit is limited to some of them: a division by the model, which is
    zero outside of the limits. *)
Theorem C79_outside_limits_refuted :
  forall d kmin kmax counts model cs, good d -> kmin <= kmax <= c_nebins d -> length counts = length (c_filled d) -> length cs = length (c_filled d) ->
  current_model d kmin kmax counts = Ok model -> 0 < nth kmin (c_first d) 0 -> in_energy d 0 0 ->
  countsSpectrum d kmin kmax false model cs = UB.
Proof.
  intros d kmin kmax counts model cs Hd (H1 & H2) Lc Lcs Hmod Hk (_ & H0).
  destruct (model_ok d Hd kmin kmax counts H1 H2 Lc) as (m & E & Lm & Hm). rewrite E in Hmod. injection Hmod as ->.
  assert (Hk0 : kmin <> 0) by (intros ->; rewrite (gd_start d Hd) in Hk; lia).
  unfold countsSpectrum. cbn [Nat.ltb Nat.leb]. destruct (Nat.ltb_spec (c_nebins d) 0); [lia|]. rewrite Nat.sub_0_r.
  destruct (c_nebins d) as [|nb] eqn:En; [lia|]. cbn [seq mfold]. pose proof (gd_first d Hd) as Lf. rewrite En in Lf.
  rewrite (vec_get_ok (c_first d) 0 0) by lia. cbn [obind]. rewrite (vec_get_ok (c_first d) (0 + 1) 0) by lia. cbn [obind Nat.add].
  rewrite (gd_start d Hd). pose proof (first_end d Hd 1 ltac:(lia)).
  destruct (nth 1 (c_first d) 0) as [|w] eqn:Ew; [lia|]. change (seq 0 (S w - 0)) with (0 :: seq 1 w). cbn [mfold].
  rewrite (vec_get_ok cs 0 0%R) by lia. cbn [obind]. rewrite (vec_get_ok model 0 0%R) by lia. cbn [obind].
  assert (Z : nth 0 model 0%R = 0%R).
  { rewrite Hm. destruct (Nat.leb_spec (nth kmin (c_first d) 0) 0); [lia|reflexivity]. }
  rewrite Z. destruct (Reqb_spec 0 0) as [_|N]; [reflexivity|lra].
Qed.
Print Assumptions C79_outside_limits_refuted.
Example C79_case_outside : in_energy case_cache 0 0 /\ 0 < nth 1 (c_first case_cache) 0. Proof. unfold in_energy. cbn. lia. Qed.

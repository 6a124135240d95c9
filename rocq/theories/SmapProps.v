(** Properties C24, C46 and C47: counts of a source, predicted totals, gradient. *)
From Coq Require Import Reals Lra Sorted.
From Coquelicot Require Import Coquelicot.
From Verif Require Import Base AccumModel AccumProofs SparseModel SmapModel SmapSpec CountsProofs SmapProofs SmapNpred SmapFixed SmapLike SmapGrad.
Local Open Scope nat_scope.

(** addSourceCounts puts the counts of the source into every entry of the filled-pixel list
    and nowhere else; the subtracting call takes them out. *)
Theorem C24_counts_of_a_source :
  forall s dc buf subtract, sm_ok s -> dc_ok s dc -> length buf = length (dc_filled dc) ->
  exists buf', addSourceCounts buf s dc subtract = Ok buf' /\ length buf' = length buf /\
    (forall j, j < length buf -> exists k, k < sm_nb s /\ in_plane dc k j) /\
    forall k j, k < sm_nb s -> in_plane dc k j ->
      nth j buf' 0%R = (nth j buf 0 + (if subtract then - counts_at s (sm_spec s) k (nth j (dc_filled dc) 0%nat) else counts_at s (sm_spec s) k (nth j (dc_filled dc) 0%nat)))%R.
Proof.
  intros s dc buf b OK DC HL. destruct (addSourceCounts_ok s OK dc DC buf b HL) as (b' & E & L & H). exists b'. split; auto. split; [congruence|]. split.
  - intros j Hj. apply (every_entry s dc DC). lia.
  - intros k j Hk Hj. rewrite H with (k := k) by auto. destruct b; ring.
Qed.
Print Assumptions C24_counts_of_a_source.
Theorem C24_add_then_subtract :
  forall s dc buf, sm_ok s -> dc_ok s dc -> length buf = length (dc_filled dc) ->
  exists buf', addSourceCounts buf s dc false = Ok buf' /\ addSourceCounts buf' s dc true = Ok buf.
Proof.
  intros s dc buf OK DC HL. destruct (addSourceCounts_ok s OK dc DC buf false HL) as (b1 & E1 & L1 & H1). destruct (addSourceCounts_ok s OK dc DC b1 true L1) as (b2 & E2 & L2 & H2).
  exists b1. split; auto. rewrite E2. f_equal. apply list_ext_nth with (d := 0%R); [congruence|]. intros j Hj.
  destruct (every_entry s dc DC j ltac:(lia)) as (k & Hk & Hin). rewrite (H2 k j), (H1 k j) by auto. ring.
Qed.
Print Assumptions C24_add_then_subtract.

(** The sum of the model map over a plane is the predicted total of that plane. *)
Lemma nth_zeros n i : nth i (zeros n) 0%R = 0%R. Proof. apply nth_repeat. Qed.
Lemma zeros_len n : length (zeros n) = n. Proof. apply repeat_length. Qed.
Lemma fs_zero s : fs_len s (no_counts (sm_nb s)).
Proof. unfold no_counts, fs_len; simpl. rewrite zeros_len. auto. Qed.
Theorem C46_plane_totals :
  forall s, sm_ok s ->
  exists map f, updateModelMap (zeros (sm_nb s * sm_np s)) s false = Ok map /\
    addFixedNpreds (no_counts (sm_nb s)) s false = Ok f /\ spectra_of_size (sm_nb s) f /\
    forall k, k < sm_nb s ->
      nth k (fs_ed f) 0%R = over_pixels s (fun p => nth (k * sm_np s + p) map 0%R) /\
      forall p, p < sm_np s -> nth (k * sm_np s + p) map 0%R = counts_at s (sm_spec s) k p.
Proof.
  intros s OK. destruct (updateModelMap_ok s OK (zeros (sm_nb s * sm_np s)) false (zeros_len _)) as (m & Em & Lm & Hm).
  destruct (addFixedNpreds_ok s OK (no_counts (sm_nb s)) false (fs_zero s)) as (f & Ef & Lf & Hf). exists m, f. split; auto. split; auto. split; [exact Lf|]. intros k Hk.
  assert (forall p, p < sm_np s -> nth (k * sm_np s + p) m 0%R = counts_at s (sm_spec s) k p) as Hp.
  { intros p Hp. rewrite Hm by auto. rewrite nth_zeros. unfold masked_out. simpl. ring. }
  split; auto. destruct (Hf k Hk) as (H & _). cbv zeta in H. rewrite H. unfold no_counts. cbn [fs_ed]. rewrite nth_zeros. rewrite Rplus_0_l, Rmult_1_l.
  unfold over_pixels. apply Rsum_ext. intros p Hin. apply in_seq in Hin. symmetry. apply Hp. lia.
Qed.
Print Assumptions C46_plane_totals.
(** A masked map: pixels with weight zero or less keep their value, the others get the counts
    of the source on top. *)
Theorem C46_masked_map :
  forall s m, sm_ok s -> length m = sm_nb s * sm_np s ->
  exists m', updateModelMap m s true = Ok m' /\ length m' = length m /\
    forall k p, k < sm_nb s -> p < sm_np s ->
      ((weight s k p <= 0)%R -> nth (k * sm_np s + p) m' 0%R = nth (k * sm_np s + p) m 0%R) /\
      ((0 < weight s k p)%R -> nth (k * sm_np s + p) m' 0%R = (nth (k * sm_np s + p) m 0 + counts_at s (sm_spec s) k p)%R).
Proof.
  intros s m OK HL. destruct (updateModelMap_ok s OK m true HL) as (m' & E & L & H). exists m'. split; auto. split; [congruence|]. intros k p Hk Hp. rewrite H by auto.
  unfold masked_out. cbn [andb]. destruct (Rleb_spec (weight s k p) 0); split; intros; try lra; ring.
Qed.
Print Assumptions C46_masked_map.
(** Weighted totals: full maps whose planes are not described by a reference bin. *)
Theorem C46_weighted_totals_partial :
  forall s, sm_ok s -> is_full s ->
  exists map f, updateModelMap (zeros (sm_nb s * sm_np s)) s false = Ok map /\
    addFixedNpreds (no_counts (sm_nb s)) s false = Ok f /\
    forall k, k < sm_nb s -> own_planes s k ->
      nth k (fs_ed_wt f) 0%R = over_pixels s (fun p => weight s k p * nth (k * sm_np s + p) map 0)%R /\
      ((sm_ev s <= 0)%Z -> nth k (fs_spec f) 0%R = over_pixels s (bin_counts s (sm_spec s) (k + sm_eb s)) /\
                           nth k (fs_wt f) 0%R = over_pixels s (fun p => weight s k p * bin_counts s (sm_spec s) (k + sm_eb s) p)%R).
Proof.
  intros s OK HF. destruct (updateModelMap_ok s OK (zeros (sm_nb s * sm_np s)) false (zeros_len _)) as (m & Em & Lm & Hm).
  destruct (addFixedNpreds_ok s OK (no_counts (sm_nb s)) false (fs_zero s)) as (f & Ef & Lf & Hf). exists m, f. split; auto. split; auto. intros k Hk Ho.
  destruct (Hf k Hk) as (_ & H1 & H2 & H3). cbv zeta in *. unfold no_counts in *. cbn [fs_spec fs_wt fs_ed fs_ed_wt] in *. rewrite nth_zeros in *. 
  pose proof (own_row0 s k Ho) as Er. split.
  - rewrite H2 by auto. rewrite Rplus_0_l, Rmult_1_l. apply Rsum_ext. intros p Hin. apply in_seq in Hin. rewrite Hm by (auto; lia). rewrite nth_zeros. unfold masked_out. simpl. ring.
  - intros Hev. assert (window s k = k + sm_eb s) as Ew by (rewrite <- Er; unfold row0; destruct (Z.ltb_spec 0 (sm_ev s)); [lia|reflexivity]).
    rewrite H1, H3 by auto. unfold free_of_dispersion. rewrite Ew. split; ring.
Qed.
Print Assumptions C46_weighted_totals_partial.
(** Taking a source out of the totals undoes putting it in. *)
Theorem C46_add_then_subtract :
  forall s f, sm_ok s -> spectra_of_size (sm_nb s) f ->
  exists f', addFixedNpreds f s false = Ok f' /\ addFixedNpreds f' s true = Ok f.
Proof.
  intros s f OK HL. destruct (arrays s OK) as (npreds & wn & E & HA & _). assert (length (sm_spec s) = sm_nb s + 2 * sm_eb s + 1) as HS by (rewrite (so_spec s OK), (so_en s OK); lia).
  destruct (fixed_loop s OK npreds wn HA (sm_spec s) HS 1%R (sm_nb s) 0 f eq_refl HL) as (f1 & E1 & L1 & H1).
  destruct (fixed_loop s OK npreds wn HA (sm_spec s) HS (-1)%R (sm_nb s) 0 f1 eq_refl L1) as (f2 & E2 & L2 & H2).
  exists f1. unfold addFixedNpreds. rewrite E. cbn [obind]. rewrite (wts_ok s OK) by auto. cbn [obind]. cbv zeta. split; [exact E1|].
  transitivity (Ok f2); [exact E2|]. f_equal. destruct HL as (A1 & A2 & A3 & A4), L2 as (B1 & B2 & B3 & B4).
  assert (forall k, k < sm_nb s -> (nth k (fs_spec f2) 0 = nth k (fs_spec f) 0 /\ nth k (fs_wt f2) 0 = nth k (fs_wt f) 0 /\ nth k (fs_ed f2) 0 = nth k (fs_ed f) 0 /\ nth k (fs_ed_wt f2) 0 = nth k (fs_ed_wt f) 0)%R) as H.
  { intros k Hk. destruct (H1 k Hk) as (c1 & R1 & _ & _ & P1 & P2 & P3 & P4). destruct (H2 k Hk) as (c2 & R2 & _ & _ & Q1 & Q2 & Q3 & Q4). cbn [Nat.leb] in *.
    apply (column_ok s k) in R1, R2. assert (c1 = c2) as -> by congruence. rewrite Q1, Q2, Q3, Q4, P1, P2, P3, P4. repeat split; ring. }
  destruct f2 as [a1 a2 a3 a4], f as [b1 b2 b3 b4]. simpl in *. f_equal; (apply list_ext_nth with (d := 0%R); [congruence|]); intros k Hk; apply H; lia.
Qed.
Print Assumptions C46_add_then_subtract.

(** Concrete maps: one pixel with weight 1/2, two bins. *)
Definition exm (ev : Z) (corr : list (R * Z)) (img : image) : smap :=
  mk_sm 1 2 img ev 0 0 [] corr [1; 1; 1]%R [1; 1; 1]%R [2; 2]%R (Some [1 / 2; 1 / 2]%R).
Lemma exm_ok ev corr m : (ev <= 0)%Z -> length m = 3 -> (length corr = 2 /\ Forall (fun c => (snd c < 2)%Z) corr) -> sm_ok (exm ev corr (Full m)).
Proof. intros H1 H2 H3. constructor; simpl; auto; try lia. intros w Hw. injection Hw as <-. reflexivity. Qed.
Example C46_case :
  let s := exm 0 [(1%R, (-1)%Z); (1%R, (-1)%Z)] (Full [1; 2; 3]%R) in
  sm_ok s /\ is_full s /\ own_planes s 1 /\ over_pixels s (fun p => weight s 1 p * counts_at s (sm_spec s) 1 p)%R = (5 / 2)%R.
Proof.
  intros s. split; [apply exm_ok; [lia|reflexivity|split; [reflexivity|repeat constructor]]|]. split; [eexists; reflexivity|]. split; [intros H; simpl in H; lia|].
  unfold s, over_pixels, counts_at, response, bin_counts, weight, plane, pix, Rsum. simpl. lra.
Qed.
Example C24_case :
  let s := exm 0 [(1%R, (-1)%Z); (1%R, (-1)%Z)] (Full [1; 2; 3]%R) in
  dc_ok s (mk_dc [0; 0] [0; 1; 2]) /\ in_plane (mk_dc [0; 0] [0; 1; 2]) 1 1 /\ counts_at s (sm_spec s) 1 0 = 5%R.
Proof.
  intros s. split; [|split].
  - split; [reflexivity|]. split; [reflexivity|]. split; [reflexivity|]. split; [intros [|[|k]] Hk; simpl in *; lia|]. repeat constructor.
  - split; simpl; lia.
  - unfold s, counts_at, response, bin_counts, plane, pix, Rsum. simpl. lra.
Qed.

(** What is missing, first: with a reference bin the weighted sums of plane [k] are combined
    with the spectrum of the reference bin, so the weighted total is not that of the map. *)
Theorem C46_reference_bin_refuted :
  exists s f map, sm_ok s /\ is_full s /\ updateModelMap (zeros (sm_nb s * sm_np s)) s false = Ok map /\
    addFixedNpreds (no_counts (sm_nb s)) s false = Ok f /\
    nth 1 (fs_ed_wt f) 0%R <> over_pixels s (fun p => weight s 1 p * nth (1 * sm_np s + p) map 0)%R.
Proof.
  set (s := exm (-1) [(1%R, (-1)%Z); (1%R, 0%Z)] (Full [1; 1; 3]%R)). assert (sm_ok s) as OK by (apply exm_ok; [lia|reflexivity|split; [reflexivity|repeat constructor]]).
  destruct (updateModelMap_ok s OK (zeros (sm_nb s * sm_np s)) false (zeros_len _)) as (m & Em & Lm & Hm).
  destruct (arrays s OK) as (npreds & wn & E & HA & Hfull).
  destruct (addFixed_wt s OK (no_counts (sm_nb s)) false npreds wn E HA (fs_zero s)) as (f & Ef & Lf & Hf).
  exists s, f, m. split; auto. split; [eexists; reflexivity|]. split; auto. split; auto. rewrite Hf by (simpl; lia).
  unfold weighted, disp. rewrite (Hfull ltac:(eexists; reflexivity)) by (simpl; lia). unfold over_pixels. cbn [sm_np s exm seq map]. rewrite Hm by (simpl; lia). rewrite nth_zeros.
  unfold no_counts. cbn [fs_ed_wt]. rewrite nth_zeros. 
  unfold row_spec, wsum, width, window, k0_of, row0, masked_out, weight, counts_at, bin_counts, plane, pix, response, Rsum, wts_of. simpl. lra.
Qed.
Print Assumptions C46_reference_bin_refuted.

(** Second: for a sparse map the weighted sums visit only the non-zero entries of the plane of
    the bin itself, so counts that come from the next plane alone are missed. *)
Definition sparse_ex : sv R := mk_sv 3 0%R [(1, 1%R)].
Theorem C46_sparse_weighted_refuted :
  exists s f map, sm_ok s /\ sm_ev s = 0%Z /\ updateModelMap (zeros (sm_nb s * sm_np s)) s false = Ok map /\
    addFixedNpreds (no_counts (sm_nb s)) s false = Ok f /\
    nth 0 (fs_ed_wt f) 0%R <> over_pixels s (fun p => weight s 0 p * nth (0 * sm_np s + p) map 0)%R.
Proof.
  set (s := exm 0 [] (SparseI sparse_ex)). assert (sm_ok s) as OK.
  { constructor; simpl; auto; try lia.
    - split; auto. split; repeat constructor.
    - intros w Hw. injection Hw as <-. reflexivity. }
  destruct (updateModelMap_ok s OK (zeros (sm_nb s * sm_np s)) false (zeros_len _)) as (m & Em & Lm & Hm).
  destruct (arrays s OK) as (npreds & wn & E & HA & _).
  destruct (addFixed_wt s OK (no_counts (sm_nb s)) false npreds wn E HA (fs_zero s)) as (f & Ef & Lf & Hf).
  exists s, f, m. split; auto. split; auto. split; auto. split; auto. rewrite Hf by (simpl; lia).
  assert (nth 0 wn [] = [(0%R, 0%R)]) as Hw.
  { unfold npred_arrays, s, exm in E. cbn in E. injection E as _ <-. reflexivity. }
  unfold weighted, disp. rewrite Hw. unfold over_pixels. cbn [sm_np s exm seq map]. rewrite Hm by (simpl; lia). rewrite nth_zeros.
  unfold no_counts. cbn [fs_ed_wt]. rewrite nth_zeros. 
  unfold width, window, k0_of, masked_out, weight, counts_at, bin_counts, plane, pix, response, Rsum, wts_of. simpl. lra.
Qed.
Print Assumptions C46_sparse_weighted_refuted.

(** Third: with the new dispersion method the "no dispersion" total of a plane adds up all the
    true-energy bins of its window. *)
Theorem C46_undispersed_window_refuted :
  exists s f, sm_ok s /\ is_full s /\ addFixedNpreds (no_counts (sm_nb s)) s false = Ok f /\
    nth 0 (fs_spec f) 0%R <> over_pixels s (bin_counts s (sm_spec s) (0 + sm_eb s)).
Proof.
  set (s := mk_sm 1 1 (Full [1; 1; 1; 1]%R) 1 1 1 [[0; 1; 0]%R] [] [1; 1; 1; 1]%R [1; 1; 1; 1]%R [2; 2; 2]%R None).
  assert (sm_ok s) as OK by (constructor; simpl; auto; try lia; [intros _; repeat split; try lia; repeat constructor|discriminate]).
  destruct (arrays s OK) as (npreds & wn & E & HA & Hfull). assert (length (sm_spec s) = sm_nb s + 2 * sm_eb s + 1) as HS by reflexivity.
  destruct (fixed_loop s OK npreds wn HA (sm_spec s) HS 1%R (sm_nb s) 0 (no_counts (sm_nb s)) eq_refl (fs_zero s)) as (f & E1 & L1 & H1).
  exists s, f. split; auto. split; [eexists; reflexivity|]. split.
  - unfold addFixedNpreds. rewrite E. cbn [obind]. rewrite (wts_ok s OK) by auto. cbn [obind]. cbv zeta. exact E1.
  - destruct (H1 0 ltac:(simpl; lia)) as (c & _ & _ & _ & P1 & _). cbn [Nat.leb] in P1. rewrite P1. unfold no_counts. cbn [fs_spec]. rewrite nth_zeros.
    unfold unweighted, over_pixels, width, window, k0_of, bin_counts, plane, pix, Rsum. simpl. lra.
Qed.
Print Assumptions C46_undispersed_window_refuted.

(** The reported derivative of the binned log-likelihood with respect to a spectral parameter
    is its derivative. *)
Theorem C47_binned_gradient_partial :
  forall s dc data base npred0 k1 k2 (Sp : R -> list R) dspec x0,
    sm_ok s -> dc_ok s dc -> length data = sm_nb s * sm_np s -> length base = length (dc_filled dc) -> k1 <= k2 <= sm_nb s ->
    (forall x, length (Sp x) = length (sm_en s)) -> length dspec = length (sm_en s) ->
    (forall t, t < length (sm_en s) -> derivable_pt_lim (fun x => nth t (Sp x) 0%R) x0 (nth t dspec 0%R)) ->
    (forall k j, k1 <= k < k2 -> in_plane dc k j ->
       (0 < nth j base 0 + counts_at s (Sp x0) k (nth j (dc_filled dc) 0%nat))%R /\ (0 <= nth (k * sm_np s + nth j (dc_filled dc) 0%nat) data 0)%R) ->
  exists (L : R -> R) g delta, (0 < delta)%R /\
    (forall x, (Rabs (x - x0) < delta)%R -> likelihood s dc data base npred0 k1 k2 Sp x = Ok (L x)) /\
    gradient s dc data base k1 k2 (Sp x0) dspec = Ok g /\
    derivable_pt_lim L x0 g.
Proof.
  intros s dc data base npred0 k1 k2 Sp dspec x0 OK DC HD HB Hk HSp Hds HDer HP.
  rewrite (so_en s OK) in HSp, Hds, HDer.
  assert (forall x, sm_ok (with_spec s (Sp x))) as OKx.
  { intros x. destruct OK as [q1 q2 q3 q4 q5 q6 q7]. constructor; simpl; auto. rewrite HSp. auto. }
  assert (forall x, dc_ok (with_spec s (Sp x)) dc) as DCx by (intros; exact DC).
  assert (forall k j, In j (plane_entries dc k) <-> in_plane dc k j) as Hin.
  { intros k j. unfold plane_entries, in_plane. rewrite in_seq. lia. }
  destruct (arrays s OK) as (npreds & wn & E & HA & _).
  set (mu := fun (kj : nat * nat) x => (nth (snd kj) base 0 + counts_at s (Sp x) (fst kj) (nth (snd kj) (dc_filled dc) 0%nat))%R).
  set (ents := flat_map (fun k => map (pair k) (plane_entries dc k)) (seq k1 (k2 - k1))).
  assert (forall kj, In kj ents <-> k1 <= fst kj < k2 /\ in_plane dc (fst kj) (snd kj)) as Hents.
  { intros [k j]. unfold ents. rewrite in_flat_map. cbn [fst snd]. split.
    - intros (k' & Hk' & Hj). apply in_map_iff in Hj as (j' & Ej & Hj). injection Ej as -> ->. apply in_seq in Hk'. rewrite <- Hin. split; [lia|auto].
    - intros (Hk' & Hj). exists k. split; [apply in_seq; lia|]. apply in_map_iff. exists j. rewrite Hin. auto. }
  assert (forall kj, derivable_pt_lim (mu kj) x0 (counts_at s dspec (fst kj) (nth (snd kj) (dc_filled dc) 0%nat))) as Hmu.
  { intros [k j]. unfold mu. cbn [fst snd]. apply is_derive_Reals. apply (is_derive_ext (fun x => plus (nth j base 0%R) (counts_at s (Sp x) k (nth j (dc_filled dc) 0)))); [reflexivity|].
    replace (counts_at s dspec k (nth j (dc_filled dc) 0)) with (plus 0%R (counts_at s dspec k (nth j (dc_filled dc) 0))) by (unfold plus; simpl; ring).
    apply (is_derive_plus (V := R_NormedModule) (fun _ => nth j base 0%R)); [apply @is_derive_const|]. apply is_derive_Reals. apply (counts_deriv s data HD); auto. }
  destruct (all_pos_near mu x0 ents) as (delta & Hd & Hpos).
  { intros [k j] Hi. split; [eexists; apply Hmu|]. apply Hents in Hi as [Ha Hb]. apply (HP k j); auto. }
  set (L := fun x => (Rsum (map (fun k => Rsum (map (fun j => datum s dc data k j * ln (mu (k, j) x)) (plane_entries dc k))) (seq k1 (k2 - k1))) + - (npred0 + Rsum (map (fun k => weighted s (Sp x) wn k (column s k)) (seq k1 (k2 - k1)))))%R).
  assert (forall x, exists model, addSourceCounts base (with_spec s (Sp x)) dc false = Ok model /\ length model = length (dc_filled dc) /\ forall k j, k < sm_nb s -> in_plane dc k j -> nth j model 0%R = mu (k, j) x) as Hmod.
  { intros x. destruct (addSourceCounts_ok (with_spec s (Sp x)) (OKx x) dc (DCx x) base false HB) as (m & Em & Lm & Hm). exists m. split; auto. split; auto.
    intros k j Hk' Hj. rewrite (Hm k j) by auto. unfold mu. cbn [fst snd]. rewrite Rmult_1_l. reflexivity. }
  assert (exists g, gradient s dc data base k1 k2 (Sp x0) dspec = Ok g /\ g = (Rsum (map (fun k => Rsum (map (fun j => datum s dc data k j / mu (k, j) x0 * counts_at s dspec k (nth j (dc_filled dc) 0%nat)) (plane_entries dc k)) - weighted s dspec wn k (column s k)) (seq k1 (k2 - k1))))%R) as (g & Eg & Hg).
  { unfold gradient. destruct (Hmod x0) as (m & Em & Lm & Hm). rewrite Em. cbn [obind].
    destruct (dom_ok s dc DC data HD m k1 k2 Lm Hk) as (dom & Ed & Ld & Hdom). rewrite Ed. cbn [obind].
    destruct (addFreeDeriv_gen (with_spec s (Sp x0)) (OKx x0) dc (DCx x0) dspec dom k1 k2 npreds wn E HA Hds Ld Hk) as (pn & Ep & Sp'). rewrite Ep. cbn [obind].
    eexists. split; [reflexivity|]. rewrite Sp'. apply Rsum_ext. intros k Hk'. apply in_seq in Hk'. f_equal. unfold first_term. apply Rsum_ext. intros j Hj.
    rewrite (Hdom k j) by (auto; lia). unfold dom_of. rewrite (Hm k j) by (try lia; apply Hin; auto). 
    destruct (HP k j ltac:(lia) (proj1 (Hin k j) Hj)) as [Hpp Hdd]. fold (mu (k, j) x0) in *. change (0 < mu (k, j) x0)%R in Hpp. change (0 <= datum s dc data k j)%R in Hdd.
    destruct (Rltb_spec 0 (mu (k, j) x0)); [|lra]. destruct (Rleb_spec (datum s dc data k j / mu (k, j) x0) 0) as [Hz|Hz]; [|reflexivity].
    assert (0 < / mu (k, j) x0)%R by (apply Rinv_0_lt_compat; auto). assert (datum s dc data k j / mu (k, j) x0 = 0)%R as Ez by (unfold Rdiv in *; nra). rewrite Ez. ring. }
  exists L, g, delta. split; auto. split; [|split; auto].
  - intros x Hx. unfold likelihood. destruct (Hmod x) as (m & Em & Lm & Hm). rewrite Em. cbn [obind].
    destruct (addFixed_wt (with_spec s (Sp x)) (OKx x) (no_counts (sm_nb s)) false npreds wn E HA (fs_zero s)) as (f & Ef & Lf & Hf). rewrite Ef. cbn [obind].
    assert (forall k j, k1 <= k < k2 -> In j (plane_entries dc k) -> nth j m 0%R = mu (k, j) x) as Hm' by (intros k j Ha Hb; apply Hm; [lia|apply Hin; auto]).
    rewrite (value_ok s dc DC data HD m _ k1 k2 Lm Hk).
    + f_equal. unfold L. f_equal.
      * apply Rsum_ext. intros k Hk'. apply in_seq in Hk'. apply Rsum_ext. intros j Hj. rewrite (Hm' k j) by (auto; lia); reflexivity.
      * f_equal. f_equal. unfold predicted_wt. apply Rsum_ext. intros k Hk'. apply in_seq in Hk'. rewrite Hf by (simpl; lia). unfold no_counts. cbn [fs_ed_wt]. rewrite nth_zeros. rewrite Rplus_0_l, Rmult_1_l. reflexivity.
    + intros k j Ha Hb. rewrite (Hm' k j) by auto. apply (Hpos x Hx). apply Hents. cbn [fst snd]. split; auto. apply Hin; auto.
  - rewrite Hg. unfold L.
    assert (forall k, In k (seq k1 (k2 - k1)) -> derivable_pt_lim (fun x => Rsum (map (fun j => datum s dc data k j * ln (mu (k, j) x))%R (plane_entries dc k))) x0 (Rsum (map (fun j => datum s dc data k j / mu (k, j) x0 * counts_at s dspec k (nth j (dc_filled dc) 0%nat))%R (plane_entries dc k)))) as H1.
    { intros k Hk'. apply in_seq in Hk'. apply (derive_Rsum (fun j x => (datum s dc data k j * ln (mu (k, j) x))%R)). intros j Hj.
      replace (datum s dc data k j / mu (k, j) x0 * counts_at s dspec k (nth j (dc_filled dc) 0%nat))%R with (datum s dc data k j * (/ mu (k, j) x0 * counts_at s dspec k (nth j (dc_filled dc) 0%nat)))%R by (unfold Rdiv; ring).
      apply derive_scal. apply (derivable_pt_lim_comp (mu (k, j)) ln); [apply Hmu|]. apply derivable_pt_lim_ln. apply (HP k j); [lia|apply Hin; auto]. }
    assert (forall k, In k (seq k1 (k2 - k1)) -> derivable_pt_lim (fun x => weighted s (Sp x) wn k (column s k)) x0 (weighted s dspec wn k (column s k))) as H2.
    { intros k Hk'. apply in_seq in Hk'. destruct (win s OK k ltac:(lia)) as (c & _ & _ & Hb & _). apply (weighted_deriv s OK data HD); auto. }
    pose proof (derive_Rsum _ _ x0 _ H1) as D1. pose proof (derive_Rsum _ _ x0 _ H2) as D2.
    pose proof (derivable_pt_lim_plus _ _ x0 _ _ D1 (derivable_pt_lim_opp _ x0 _ (derivable_pt_lim_plus _ _ x0 _ _ (derivable_pt_lim_const npred0 x0) D2))) as D3.
    assert (forall (a b : nat -> R) l, Rsum (map (fun k => a k - b k)%R l) = (Rsum (map a l) + - (0 + Rsum (map b l)))%R) as Hs.
    { intros a b l. unfold Rsum. induction l; simpl; [ring|rewrite IHl; ring]. }
    rewrite (Hs (fun k => Rsum (map (fun j => datum s dc data k j / mu (k, j) x0 * counts_at s dspec k (nth j (dc_filled dc) 0%nat))%R (plane_entries dc k)))). exact D3.
Qed.
Print Assumptions C47_binned_gradient_partial.
(** The spectrum x (1, 1, 1) at x = 1, one pixel, both planes filled. *)
Example C47_case :
  let s := exm 0 [(1%R, (-1)%Z); (1%R, (-1)%Z)] (Full [1; 2; 3]%R) in let dc := mk_dc [0; 0] [0; 1; 2] in
  (forall t, t < length (sm_en s) -> derivable_pt_lim (fun x => nth t [x; x; x] 0%R) 1 (nth t [1; 1; 1]%R 0%R)) /\
  (forall k j, 0 <= k < 2 -> in_plane dc k j ->
     (0 < nth j [1; 0] 0 + counts_at s [1; 1; 1] k (nth j (dc_filled dc) 0%nat))%R /\ (0 <= nth (k * sm_np s + nth j (dc_filled dc) 0%nat) [4; 7] 0)%R).
Proof.
  intros s dc. split.
  - intros [|[|[|t]]] H; simpl in H; try lia; apply derivable_pt_lim_id.
  - intros k j Hk Hj. unfold in_plane in Hj. simpl in Hj. destruct k as [|[|]]; try lia; simpl in Hj.
    + assert (j = 0) as -> by lia. unfold s, counts_at, response, bin_counts, plane, pix, Rsum. simpl. lra.
    + assert (j = 1) as -> by lia. unfold s, counts_at, response, bin_counts, plane, pix, Rsum. simpl. lra.
Qed.

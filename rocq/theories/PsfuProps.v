(** C72, C172: maps of point sources. *)
From Verif Require Import Base AccumModel AccumProofs PsfuModel PsfuSpec PsfuProofs PsfuEst PsfuMaps.
From Coq Require Import Reals List Lra Lia.
Import ListNotations.
Local Open Scope R_scope.

(** ** Interpolation on the pixel grid *)

(** Interpolation reproduces every function a + bx + cy + dxy, inside the grid and outside it. *)
Theorem C72_bilinear : forall a b c d rows cols z x y,
  (2 <= rows)%nat -> (2 <= cols)%nat -> table rows cols z ->
  (forall i j, (i < rows)%nat -> (j < cols)%nat -> entry z i j = Some (a + b * INR i + c * INR j + d * INR i * INR j)) ->
  bilinear_on_grid x y z = Ok (a + b * x + c * y + d * x * y).
Proof. exact bilinear_poly. Qed.
Print Assumptions C72_bilinear.

(** At a grid point it returns the value there; between grid points it stays between the extremes. *)
Theorem C72_bilinear_grid : forall rows cols z, (2 <= rows)%nat -> (2 <= cols)%nat -> table rows cols z ->
  (forall i j v, entry z i j = Some v -> bilinear_on_grid (INR i) (INR j) z = Ok v) /\
  (forall lo hi x y, (forall i j v, entry z i j = Some v -> lo <= v <= hi) ->
     0 <= x <= INR (rows - 1) -> 0 <= y <= INR (cols - 1) -> exists v, bilinear_on_grid x y z = Ok v /\ lo <= v <= hi).
Proof. intros rows cols z Hr Hc T. split; intros; [apply (bilinear_node rows cols)|apply (bilinear_bounds lo hi rows cols)]; assumption. Qed.
Print Assumptions C72_bilinear_grid.

Example C72_bilinear_case : bilinear_on_grid 3 (-1) [[1; 3; 5]; [2; 5; 8]] = Ok (1 + 1 * 3 + 2 * (-1) + 1 * 3 * (-1)).
Proof.
  apply (C72_bilinear 1 1 2 1 2 3); [lia|lia|split; [reflexivity|intros r [<-|[<-|[]]]; reflexivity]|].
  intros [|[|i]] [|[|[|j]]] Hi Hj; try lia; cbn; f_equal; lra.
Qed.

Section Props.
  Variable Dir : Type.
  Variable difference : Dir -> Dir -> R.
  Variable psf : R -> R -> R.
  Variable integral : R -> R -> R.
  Variable peakValue : R -> R.
  (** Separation of two directions in degrees. *)
  Notation deg a b := (difference a b * 180 / PI).
  Notation estimate := (psfValueEstimate Dir difference psf integral peakValue).
  Notation wcs_map := (makePointSourceMap_wcs Dir difference psf integral peakValue).
  Notation hpx_map := (makePointSourceMap_healpix Dir psf integral).

  (** ** Separations *)

  (** The offset map turns the planar distance of each pixel centre into its true separation. *)
  Theorem C72_offsets : forall dir dm, length (d_pixels dm) = (d_naxis1 dm * d_naxis2 dm)%nat ->
    exists z, createOffsetMap Dir difference dir dm = Ok z /\ table (d_naxis2 dm) (d_naxis1 dm) z /\
      forall row col p, (row < d_naxis2 dm)%nat -> (col < d_naxis1 dm)%nat -> nth_error (d_pixels dm) (row * d_naxis1 dm + col) = Some p ->
        exists o, entry z row col = Some o /\
          let s := planar (d_size dm) (d_coord dm dir) (INR (col + 1), INR (row + 1)) in
          (1 / 1000000 < s -> s * (1 + o) = deg dir (p_dir p)) /\ (s <= 1 / 1000000 -> o = 0).
  Proof.
    intros dir dm L. destruct (d_pixels dm) as [|d0 l] eqn:EP.
    - exists (repeat (repeat 0 (d_naxis1 dm)) (d_naxis2 dm)). unfold createOffsetMap. rewrite EP. split; [reflexivity|]. split; [apply table_repeat|].
      intros row col p _ _ H. destruct (row * d_naxis1 dm + col)%nat; discriminate.
    - rewrite <- EP in *. destruct (createOffsetMap_ok Dir difference dir dm d0 L) as (z & E & T & H). exists z. split; [exact E|]. split; [exact T|].
      intros row col p Hr Hc Hp. assert (Hj : (row * d_naxis1 dm + col < length (d_pixels dm))%nat) by (apply nth_error_Some; congruence).
      specialize (H _ Hj). rewrite Nat.div_add_l, (Nat.div_small col), Nat.add_0_r in H by lia.
      replace ((row * d_naxis1 dm + col) mod d_naxis1 dm)%nat with col in H by (rewrite Nat.add_comm, Nat.mod_add, Nat.mod_small; lia).
      eexists; split; [exact H|]. cbv zeta. unfold offset_at.
      replace ((row * d_naxis1 dm + col) mod d_naxis1 dm)%nat with col by (rewrite Nat.add_comm, Nat.mod_add, Nat.mod_small; lia).
      rewrite Nat.div_add_l, (Nat.div_small col), Nat.add_0_r by lia.
      set (s := planar _ _ _). rewrite (nth_error_nth _ _ d0 Hp). unfold degrees. destruct (Rltb_spec (1 / 1000000) s) as [C|C].
      + split; [intros _|intros; lra]. pose proof PI_RGT_0. field. split; lra.
      + split; [intros; lra|reflexivity].
  Qed.

  (** The estimate with n^2 sub-pixels is the mean of the PSF over the centres of the n^2 equal parts of the pixel, at the planar distance
      corrected by the interpolated offset. *)
  Theorem C72_sub_pixels : forall rows cols z energy srcCoord pc size n,
    (2 <= rows)%nat -> (2 <= cols)%nat -> table rows cols z -> (0 < n)%nat ->
    exists s, (forall a b, (a < n)%nat -> (b < n)%nat -> bilinear_on_grid (part (snd pc) n b - 1) (part (fst pc) n a - 1) z = Ok (s a b)) /\
      integrate_psf_fast psf energy srcCoord pc z size n =
      Ok (total n (fun a => total n (fun b => psf energy (planar size srcCoord (part (fst pc) n a, part (snd pc) n b) * (1 + s a b)))) / INR (n * n)).
  Proof. exact (fast_ok psf). Qed.

  (** On a map without distortion this is the mean of the PSF at the true separations. *)
  Theorem C72_undistorted : forall dir dm z energy pc n,
    length (d_pixels dm) = (d_naxis1 dm * d_naxis2 dm)%nat -> (2 <= d_naxis1 dm)%nat -> (2 <= d_naxis2 dm)%nat -> (0 < n)%nat ->
    (forall row col p, (row < d_naxis2 dm)%nat -> (col < d_naxis1 dm)%nat -> nth_error (d_pixels dm) (row * d_naxis1 dm + col) = Some p ->
       deg dir (p_dir p) = planar (d_size dm) (d_coord dm dir) (INR (col + 1), INR (row + 1))) ->
    createOffsetMap Dir difference dir dm = Ok z ->
    integrate_psf_fast psf energy (d_coord dm dir) pc z (d_size dm) n =
    Ok (total n (fun a => total n (fun b => psf energy (planar (d_size dm) (d_coord dm dir) (part (fst pc) n a, part (snd pc) n b)))) / INR (n * n)).
  Proof.
    intros dir dm z energy pc n L H1 H2 Hn F Hz. destruct (C72_offsets dir dm L) as (z' & E & T & H). rewrite Hz in E. injection E as <-.
    apply (fast_flat Dir psf dir dm energy pc n (d_naxis2 dm) (d_naxis1 dm)); try assumption.
    intros row col Hr Hc. assert (Hj : (row * d_naxis1 dm + col < length (d_pixels dm))%nat) by (rewrite L; nia).
    destruct (nth_error (d_pixels dm) (row * d_naxis1 dm + col)) as [p|] eqn:Ep; [|apply nth_error_None in Ep; lia].
    destruct (H row col p Hr Hc Ep) as (o & -> & Ho). cbv zeta in Ho. rewrite (F row col p Hr Hc Ep) in Ho.
    f_equal. destruct Ho as [Ho1 Ho2]. set (s := planar _ _ _) in *. destruct (Rle_lt_dec s (1 / 1000000)) as [C|C]; [auto|].
    specialize (Ho1 C). assert (s * o = 0) by lra. apply Rmult_integral in H0. destruct H0; [lra|assumption].
  Qed.

  (** ** Estimators *)

  (** The adaptive estimate: the value at the centre for pixels far below the peak; otherwise the estimate with 4^m sub-pixels for the first m
      (at most 6) at which it does not change, is zero, or changes by less than the tolerance. *)
  Theorem C72_adaptive : forall cfg energy dir p coord z size F,
    c_type cfg = Adaptive ->
    F 0%nat = psf energy (deg dir (p_dir p)) ->
    (forall i, (1 <= i <= 6)%nat -> integrate_psf_fast psf energy coord (p_x p, p_y p) z size (2 ^ i) = Ok (F i)) ->
    let ratio := if Req_EM_T (peakValue energy) 0 then 0 else F 0%nat / peakValue energy in
    (ratio < c_peak cfg -> estimate cfg energy dir p coord z size = Ok (F 0%nat)) /\
    (c_peak cfg <= ratio -> exists m, (1 <= m <= 6)%nat /\ estimate cfg energy dir p coord z size = Ok (F m) /\
      (forall i, (1 <= i < m)%nat -> F i <> F (i - 1)%nat /\ F i <> 0 /\ c_ftol cfg <= Rabs ((F i - F (i - 1)%nat) / F i)) /\
      (m = 6%nat \/ F m = F (m - 1)%nat \/ F m = 0 \/ Rabs ((F m - F (m - 1)%nat) / F m) < c_ftol cfg)).
  Proof.
    intros cfg energy dir p coord z size F Ht H0 HF ratio. unfold psfValueEstimate. rewrite Ht. unfold integrate_psf_adaptive, degrees. rewrite <- H0.
    replace (if Reqb (peakValue energy) 0 then 0 else F 0%nat / peakValue energy) with ratio by (unfold ratio, Reqb; destruct (Req_EM_T (peakValue energy) 0); reflexivity).
    destruct (Rltb_spec ratio (c_peak cfg)) as [C|C]; (split; intros H; [|try lra]); try lra; [reflexivity|].
    destruct (adaptive_loop_ok (integrate_psf_fast psf energy coord (p_x p, p_y p) z size) F (c_ftol cfg) 6 0 (F 0%nat)) as (m & Hm & E & A & B); [exact HF|reflexivity|lia|lia|].
    exists m. change (2 ^ 0)%nat with 1%nat in E.  split; [lia|]. split; [match type of E with ?l = _ => match goal with |- l = _ => exact E end end|]. split; [intros i Hi; apply A; lia|exact B].
  Qed.

  (** The annular estimate: PSF content of a cone of the pixel's solid angle around the source, or of the ring at the pixel's separation and of
      the pixel's width, divided by the solid angle of that cone or ring. *)
  Theorem C72_annular : forall cfg energy dir p coord z size, c_type cfg = Annular ->
    let o := deg dir (p_dir p) in let w := sqrt (p_omega p) * 180 / PI in
    (0 < p_omega p <= 4 * PI -> o <= w / 2 -> exists v theta, estimate cfg energy dir p coord z size = Ok v /\
       0 <= theta <= 180 /\ cone theta = p_omega p /\ v * cone theta = integral theta energy) /\
    (0 < p_omega p -> w / 2 < o -> o + w / 2 <= 180 -> exists v, estimate cfg energy dir p coord z size = Ok v /\
       v * (cone (o + w / 2) - cone (o - w / 2)) = integral (o + w / 2) energy - integral (o - w / 2) energy).
  Proof.
    intros cfg energy dir p coord z size Ht o w. unfold psfValueEstimate. rewrite Ht. split.
    - intros Ho Hd. destruct (annular_cone Dir difference integral energy dir p Ho Hd) as (v & th & E & B & C & V). exists v, th. rewrite C. auto.
    - intros Ho H1 H2. exact (annular_ring Dir difference integral energy dir p Ho H1 H2).
  Qed.

  (** The value at the pixel centre. *)
  Theorem C72_centre : forall cfg energy dir p coord z size, c_type cfg = Pixel_center ->
    estimate cfg energy dir p coord z size = Ok (psf energy (deg dir (p_dir p))).
  Proof. intros. unfold psfValueEstimate. rewrite H. reflexivity. Qed.

  (** The PSF radius is the least separation of the source from the border of the map. *)
  Theorem C72_radius : forall dir dm, d_border dm <> [] ->
    exists r b, maxPsfRadius Dir difference dir dm = Ok r /\ In b (d_border dm) /\ r = deg dir b /\ forall b', In b' (d_border dm) -> r <= deg dir b'.
  Proof. exact (maxPsfRadius_ok Dir difference). Qed.

  (** ** Maps on a plane *)

  Section Plane.
    Variable cfg : config.
    Variable src : source Dir.
    Variable dm : data_map Dir.
    Variable energies : list R.
    Variable ex : R -> R.
    (** Number of energies before the end of the range, and the argument that selects it. *)
    Variable kmin kmax : nat.
    Variable kmaxz : Z.
    Variable offs : list (list R).
    Variable rad : R.
    Variable p : nat -> pixel Dir.
    Variable e : nat -> R.
    Variable est : nat -> nat -> R.
    Let npix := length (d_pixels dm).
    Hypothesis Hmax : (kmaxz < 0)%Z /\ kmax = length energies \/ kmaxz = Z.of_nat kmax.
    Hypothesis Hrange : (kmin <= kmax <= length energies)%nat.
    Hypothesis Hp : forall j, (j < npix)%nat -> nth_error (d_pixels dm) j = Some (p j).
    Hypothesis He : forall k, (k < length energies)%nat -> nth_error energies k = Some (e k).
    Let factor (k : nat) : R := if s_use_exposure src then ex (e k) else 1.

    Lemma layer_eq : last_layer kmaxz energies = kmax.
    Proof. unfold last_layer. destruct Hmax as [[H ->]|H]; destruct (Z.ltb_spec kmaxz 0); lia. Qed.
    Lemma p_eq j d : (j < npix)%nat -> nth j (d_pixels dm) d = p j.
    Proof. intros H. apply nth_error_nth, Hp, H. Qed.
    Lemma e_eq k d : (k < length energies)%nat -> nth k energies d = e k.
    Proof. intros H. apply nth_error_nth, He, H. Qed.

    Section Convolved.
      Hypothesis Hc : c_convolve cfg = true.
      Hypothesis Hu : s_use_psf src = true.
      Hypothesis Hn : (0 < length energies)%nat.
      Hypothesis Hv : c_verbose cfg = true -> (20 <= (kmax - kmin) * npix)%nat.
      Hypothesis Ho : createOffsetMap Dir difference (s_dir src) dm = Ok offs.
      Hypothesis Hr : maxPsfRadius Dir difference (s_dir src) dm = Ok rad.
      Hypothesis Hest : forall k j, (kmin <= k < kmax)%nat -> (j < npix)%nat ->
        estimate cfg (e k) (s_dir src) (p j) (d_coord dm (s_dir src)) offs (d_size dm) = Ok (est k j).

      Lemma convolved_state mm0 : exists st,
        holds (kmax - kmin) npix (fun k j => nth (k * npix + j) (vec_resize mm0 ((kmax - kmin) * npix) 0) 0 + est (kmin + k)%nat j * p_omega (p j) * factor (kmin + k)) (fst st) /\
        holds (kmax - kmin) 1 (fun k _ => total_if (fun j => Rleb (deg (s_dir src) (p_dir (p j))) rad) npix (fun j => est (kmin + k)%nat j * p_omega (p j))) (snd st) /\
        wcs_map cfg src dm energies (Some ex) [] mm0 kmin kmaxz =
          if c_corrections cfg && d_within dm (s_dir src) (e (length energies / 2))
          then apply_corrections integral energies rad (snd st) npix kmin (fst st) else Ok (fst st).
      Proof.
        pose proof (wcs_convolved Dir difference psf integral peakValue cfg src dm energies ex mm0 kmin kmaxz offs rad est (p 0%nat)) as W.
        cbv zeta in W. rewrite layer_eq in W. fold npix in W.
        destruct (W Hc Hu Hrange Hn Hv Ho Hr) as (st & H1 & H2 & H3).
        - intros k j Hk Hj. rewrite e_eq by lia. rewrite p_eq by assumption. now apply Hest.
        - exists st. split; [|split].
          + eapply holds_ext; [exact H1|]. intros k j Hk Hj. cbv beta. unfold cell, val, PsfuMaps.factor, factor. rewrite p_eq by assumption. rewrite e_eq by lia. reflexivity.
          + eapply holds_ext; [exact H2|]. intros k j Hk Hj. cbv beta. unfold total_if. apply total_ext. intros i Hi. unfold inside, val, degrees. rewrite p_eq by assumption. reflexivity.
          + rewrite H3. rewrite e_eq by (apply Nat.div_lt; lia). reflexivity.
      Qed.

      (** Without corrections: every cell of the map is the PSF estimate times the pixel's solid angle times the exposure. *)
      Theorem C72_map : c_corrections cfg = false \/ d_within dm (s_dir src) (e (length energies / 2)) = false ->
        exists m, wcs_map cfg src dm energies (Some ex) [] [] kmin kmaxz = Ok m /\ length m = ((kmax - kmin) * npix)%nat /\
          forall k j, (kmin <= k < kmax)%nat -> (j < npix)%nat ->
            nth_error m ((k - kmin) * npix + j) = Some (est k j * p_omega (p j) * factor k).
      Proof.
        intros H. destruct (convolved_state []) as (st & H1 & _ & E). rewrite E.
        replace (c_corrections cfg && d_within dm (s_dir src) (e (length energies / 2))) with false by (destruct H as [-> | ->]; [reflexivity|now rewrite andb_false_r]).
        exists (fst st). split; [reflexivity|]. split; [apply H1|]. intros k j Hk Hj.
        rewrite (holds_error _ _ _ _ (k - kmin) j H1) by lia. rewrite resize_nil, nth_repeat. replace (kmin + (k - kmin))%nat with k by lia. f_equal. lra.
      Qed.

      (** With corrections, over all energies: each layer is multiplied by one number, and then its pixels within the PSF radius hold exactly the
          exposure times the PSF's integral out to that radius. *)
      Theorem C72_corrected : c_corrections cfg = true -> d_within dm (s_dir src) (e (length energies / 2)) = true -> kmin = 0%nat -> kmax = length energies ->
        exists m, wcs_map cfg src dm energies (Some ex) [] [] kmin kmaxz = Ok m /\ length m = (length energies * npix)%nat /\
          forall k (near : nat -> bool), (k < length energies)%nat ->
            (forall j, (j < npix)%nat -> near j = true <-> deg (s_dir src) (p_dir (p j)) <= rad) ->
            exists c, (forall j, (j < npix)%nat -> nth_error m (k * npix + j) = Some (est k j * p_omega (p j) * factor k * c)) /\
              (total_if near npix (fun j => est k j * p_omega (p j)) <> 0 ->
               total_if near npix (fun j => nth (k * npix + j) m 0) = factor k * integral rad (e k)) /\
              (total_if near npix (fun j => est k j * p_omega (p j)) = 0 -> c = 0).
      Proof.
        intros Hcc Hw K0 K1. destruct (convolved_state []) as (st & H1 & H2 & E). rewrite E, Hcc, Hw. cbn [andb].
        rewrite K0, K1, Nat.sub_0_r in *.
        destruct (corrections_ok integral energies rad _ npix _ (fst st) (snd st) H1 H2) as (m & Em & Hm). rewrite Em. exists m. split; [reflexivity|]. split; [apply Hm|].
        intros k near Hk Hnear. cbn [plus] in Hm.
        assert (EQ : total_if (fun j => Rleb (deg (s_dir src) (p_dir (p j))) rad) npix (fun j => est k j * p_omega (p j)) = total_if near npix (fun j => est k j * p_omega (p j))).
        { unfold total_if. apply total_ext. intros j Hj. specialize (Hnear j Hj). destruct (Rleb_spec (deg (s_dir src) (p_dir (p j))) rad) as [C|C], (near j); try reflexivity; [assert (false = true) by tauto; discriminate|exfalso; apply Rlt_not_le in C || idtac; tauto || (apply C; tauto) || (pose proof (proj1 Hnear eq_refl); lra)]. }
        set (sum := total_if near npix (fun j => est k j * p_omega (p j))) in *.
        exists (if Reqb sum 0 then 0 else integral rad (e k) / sum).
        assert (HC : forall j, (j < npix)%nat -> nth_error m (k * npix + j) = Some (est k j * p_omega (p j) * factor k * (if Reqb sum 0 then 0 else integral rad (e k) / sum))).
        { intros j Hj. rewrite (holds_error _ _ _ _ k j Hm) by assumption. rewrite EQ. rewrite resize_nil, nth_repeat. rewrite e_eq by assumption. f_equal. f_equal. lra. }
        split; [exact HC|]. destruct (Reqb_spec sum 0) as [Z|NZ].
        - split; [tauto|reflexivity].
        - split; [intros _|tauto].
          transitivity (total npix (fun j => factor k * (integral rad (e k) / sum) * (if near j then est k j * p_omega (p j) else 0))).
          + unfold total_if. apply total_ext. intros j Hj. rewrite (nth_error_nth _ _ 0 (HC j Hj)). destruct (near j); ring.
          + rewrite total_scale. fold (total_if near npix (fun j => est k j * p_omega (p j))). fold sum. field. exact NZ.
      Qed.

      (** The same call with a vector that already holds the result adds to it instead of replacing it. *)
      Theorem C72_reuse_refuted : c_corrections cfg = false ->
        forall m, wcs_map cfg src dm energies (Some ex) [] [] kmin kmaxz = Ok m ->
        exists m', wcs_map cfg src dm energies (Some ex) [] m kmin kmaxz = Ok m' /\
          forall i v, nth_error m i = Some v -> nth_error m' i = Some (2 * v).
      Proof.
        intros Hcc m Em. destruct (convolved_state []) as (st & H1 & _ & E). rewrite E, Hcc in Em. cbn [andb] in Em. injection Em as <-.
        destruct (convolved_state (fst st)) as (st' & H1' & _ & E'). rewrite E', Hcc. cbn [andb]. exists (fst st'). split; [reflexivity|].
        intros i v Hi. assert (Li : (i < (kmax - kmin) * npix)%nat) by (destruct H1 as [L _]; rewrite <- L; apply nth_error_Some; congruence).
        assert (Np : (0 < npix)%nat) by (destruct npix; lia).
        pose proof (Nat.div_mod i npix ltac:(lia)) as D. pose proof (Nat.mod_upper_bound i npix ltac:(lia)) as M.
        assert (Dk : (i / npix < kmax - kmin)%nat) by (apply Nat.div_lt_upper_bound; lia).
        set (k := (i / npix)%nat) in *. set (j := (i mod npix)%nat) in *. replace i with (k * npix + j)%nat in * by lia.
        rewrite (holds_error _ _ _ _ k j H1 Dk M) in Hi. injection Hi as <-. rewrite (holds_error _ _ _ _ k j H1' Dk M). f_equal.
        assert (R : nth (k * npix + j) (vec_resize (fst st) ((kmax - kmin) * npix) 0) 0 = nth (k * npix + j) (fst st) 0).
        { destruct H1 as [L _]. unfold vec_resize. rewrite firstn_all2 by lia. rewrite L, Nat.sub_diag. cbn [repeat]. now rewrite app_nil_r. }
        rewrite R. destruct H1 as [_ H1]. rewrite H1 by assumption. rewrite resize_nil, nth_repeat. lra.
      Qed.

      (** A range that does not start at the first energy, with corrections, is undefined behaviour. *)
      Theorem C72_partial_range_refuted : c_corrections cfg = true -> d_within dm (s_dir src) (e (length energies / 2)) = true -> (0 < kmin)%nat ->
        wcs_map cfg src dm energies (Some ex) [] [] kmin kmaxz = UB.
      Proof.
        intros Hcc Hw K. destruct (convolved_state []) as (st & _ & _ & E). rewrite E, Hcc, Hw. cbn [andb]. unfold apply_corrections.
        destruct energies as [|e0 l]; [cbn in Hn; lia|]. cbn [length seq combine mfold fst]. replace (0 <? kmin)%nat with true by (symmetry; apply Nat.ltb_lt; lia). reflexivity.
      Qed.
    End Convolved.

    Section Point.
      Hypothesis Hc : c_convolve cfg && s_use_psf src = false.
      Hypothesis Hl : npix = (d_naxis1 dm * d_naxis2 dm)%nat.
      Hypothesis Hne : (0 < npix)%nat.

      (** Without convolution: the exposure (or 1) in the pixel whose centre is nearest to the source, nothing elsewhere; nothing at all if
          that centre is too far away. *)
      Theorem C72_point : exists m c, wcs_map cfg src dm energies (Some ex) [] [] kmin kmaxz = Ok m /\ length m = ((kmax - kmin) * npix)%nat /\
        (c < npix)%nat /\ (forall j, (j < npix)%nat -> difference (p_dir (p c)) (s_dir src) <= difference (p_dir (p j)) (s_dir src)) /\
        forall k j, (kmin <= k < kmax)%nat -> (j < npix)%nat -> exists v, nth_error m ((k - kmin) * npix + j) = Some v /\
          (j <> c -> v = 0) /\
          (j = c -> 1 - p_omega (p c) / (2 * PI) < cos (difference (p_dir (p c)) (s_dir src) / 2) -> v = factor k) /\
          (j = c -> cos (difference (p_dir (p c)) (s_dir src) / 2) <= 1 - p_omega (p c) / (2 * PI) -> v = 0).
      Proof.
        assert (NN : d_pixels dm <> []) by (intros C; unfold npix in Hne; rewrite C in Hne; cbn in Hne; lia).
        destruct (find_ok Dir difference (d_pixels dm) (s_dir src) (p 0%nat) NN) as (c & Hcn & Hmin & _ & Ef). fold npix in Hcn.
        rewrite p_eq in Ef by assumption.
        assert (HM : forall j, (j < npix)%nat -> difference (p_dir (p c)) (s_dir src) <= difference (p_dir (p j)) (s_dir src)).
        { intros j Hj. specialize (Hmin j Hj). now rewrite !p_eq in Hmin by assumption. }
        assert (HPI : p_omega (p c) / 2 / PI = p_omega (p c) / (2 * PI)) by (field; pose proof PI_RGT_0; lra). rewrite HPI in Ef.
        destruct (Rltb_spec (1 - p_omega (p c) / (2 * PI)) (cos (difference (p_dir (p c)) (s_dir src) / 2))) as [C|C].
        - pose proof (wcs_point Dir difference psf integral peakValue cfg src dm energies ex [] kmin kmaxz (p 0%nat)) as W. cbv zeta in W. rewrite layer_eq in W. fold npix in W.
          destruct (W Hc Hrange Hl c Ef Hcn) as (m & Em & Hm). exists m, c. split; [exact Em|]. split; [apply Hm|]. split; [exact Hcn|]. split; [exact HM|].
          intros k j Hk Hj. eexists. split; [apply (holds_error _ _ _ _ (k - kmin) j Hm); lia|].
          destruct (Nat.eqb_spec j c) as [->|N]; (split; [|split]); intros; try congruence; try lra.
          + unfold factor. rewrite e_eq by lia. now replace (kmin + (k - kmin))%nat with k by lia.
          + rewrite resize_nil. apply nth_repeat.
        - pose proof (wcs_point_none Dir difference psf integral peakValue cfg src dm energies ex [] kmin kmaxz (p 0%nat)) as W. cbv zeta in W. rewrite layer_eq in W. fold npix in W.
          exists (vec_resize [] ((kmax - kmin) * npix) 0), c. split; [exact (W Hc Hrange Hl Ef)|]. split; [apply vec_resize_length|]. split; [exact Hcn|]. split; [exact HM|].
          intros k j Hk Hj. exists 0. rewrite resize_nil. split; [rewrite (nth_error_nth' _ 0) by (rewrite repeat_length; apply cell_lt; lia); now rewrite nth_repeat|].
          split; [|split]; intros; try reflexivity. lra.
      Qed.
    End Point.
  End Plane.

  (** Progress output with fewer than 20 cells divides by zero. *)
  Theorem C72_verbose_refuted : forall cfg src dm energies ex z rad kmax kmaxz,
    c_convolve cfg = true -> s_use_psf src = true -> c_verbose cfg = true -> c_corrections cfg = false ->
    kmaxz = Z.of_nat kmax -> (0 < kmax <= length energies)%nat -> (0 < kmax * length (d_pixels dm) < 20)%nat ->
    createOffsetMap Dir difference (s_dir src) dm = Ok z -> maxPsfRadius Dir difference (s_dir src) dm = Ok rad ->
    wcs_map cfg src dm energies (Some ex) [] [] 0 kmaxz = UB.
  Proof.
    intros cfg src dm energies ex z rad kmax kmaxz Hc Hu Hv Hcc -> Hk Hp Ho Hr. unfold makePointSourceMap_wcs.
    replace (last_layer (Z.of_nat kmax) energies) with kmax by (unfold last_layer; destruct (Z.ltb_spec (Z.of_nat kmax) 0); lia).
    change (kmax <? 0)%nat with false. cbv iota. rewrite Ho. cbn [obind]. rewrite Hc, Hu, Hcc. cbn [andb obind]. rewrite Hr. cbn [obind].
    rewrite Nat.sub_0_r. destruct (d_pixels dm) as [|p0 ps] eqn:EP; [cbn in Hp; lia|]. cbn [length seq combine mfold]. cbn [length] in Hp.
    destruct kmax as [|kmax]; [lia|]. cbn [seq mfold]. rewrite (vec_get_ok energies 0 0) by lia. cbn [obind]. rewrite Hv.
    rewrite (Nat.div_small (S kmax * S (length ps)) 20) by lia. reflexivity.
  Qed.

  (** A map that is one pixel wide or high has no second row to interpolate. *)
  Theorem C72_one_row_refuted : forall cols z energy coord pc size n, table 1 cols z -> (0 < n)%nat -> integrate_psf_fast psf energy coord pc z size n = UB.
  Proof.
    intros cols z energy coord pc size n [L T] Hn. unfold integrate_psf_fast. replace (n =? 0)%nat with false by (symmetry; apply Nat.eqb_neq; lia).
    destruct n as [|n]; [lia|]. cbn [seq mfold].
    assert (B : forall x y, bilinear_on_grid x y z = UB).
    { intros x y. destruct z as [|r [|? ?]]; try (cbn in L; lia). unfold bilinear_on_grid. cbn [vec_get nth_error obind length].
      destruct (length r =? 0)%nat; [reflexivity|].
      assert (Gx : fst (get_index_and_remainder x 1) = 0%nat).
      { unfold get_index_and_remainder. cbn [Nat.sub Nat.eqb fst]. change (INR 0) with 0.
        assert ((if Rltb x 0 then 0 else if Rltb 0 x then 0 else x) = 0) as ->.
        { destruct (Rltb_spec x 0) as [A|A]; [reflexivity|]. destruct (Rltb_spec 0 x) as [A'|A']; [reflexivity|lra]. }
        change 0 with (INR 0) at 1. apply trunc_INR. }
      destruct (get_index_and_remainder x 1) as [ix rx]. cbn [fst] in Gx. subst ix. destruct (get_index_and_remainder y (length r)) as [iy ry].
      cbn [vec_get nth_error obind plus]. unfold vec_get. destruct (nth_error r iy); [|reflexivity]. cbn [obind]. destruct (nth_error r (iy + 1)); reflexivity. }
    rewrite B. reflexivity.
  Qed.

  (** A pixel of vanishing solid angle (a pixel off the sky) makes the annular estimate 0/0. *)
  Theorem C72_annular_refuted : forall cfg energy dir p coord z size, c_type cfg = Annular -> p_omega p = 0 -> estimate cfg energy dir p coord z size = UB.
  Proof.
    intros cfg energy dir p coord z size Ht Ho. unfold psfValueEstimate. rewrite Ht. unfold psfValue_annular. rewrite Ho, sqrt_0.
    replace (0 * 180 / PI / 2) with 0 by lra. destruct (Rleb_spec (degrees Dir difference dir (p_dir p)) 0) as [C|C].
    - destruct (Reqb_spec 0 0); [|lra]. now rewrite orb_true_r.
    - rewrite Rminus_0_r, Rplus_0_r, Rminus_diag_eq, Rmult_0_r by reflexivity. destruct (Reqb_spec 0 0); [reflexivity|lra].
  Qed.

  (** ** HEALPix maps *)

  (** The PSF on the full sky: the mean of the PSF over fine sub-pixels in the central pixel and its neighbours, the value at the centre in the other
      pixels near the source, zero elsewhere; scaled so that the pixels add up to the PSF's integral out to the containment radius (at most 15 degrees). *)
  Theorem C72_hpx_psf : forall g radius energy near centre raw,
    (forall p, In p (g_disc g) -> (p < g_npix g)%nat) -> (g_centre g < g_npix g)%nat ->
    (forall p, In p (g_disc g) -> fine_mean psf g energy (Nat.min (13 - g_order g) 3) p = Ok (near p)) ->
    fine_mean psf g energy (Nat.min (13 - g_order g) 6) (g_centre g) = Ok centre ->
    raw (g_centre g) = centre ->
    (forall p, p <> g_centre g -> In p (g_disc g) -> In p (g_neighbours g) -> raw p = near p) ->
    (forall p, p <> g_centre g -> In p (g_disc g) -> ~ In p (g_neighbours g) -> raw p = Rmax (psf energy (g_sep g p)) 0) ->
    (forall p, p <> g_centre g -> ~ In p (g_disc g) -> raw p = 0) ->
    total (g_npix g) raw <> 0 ->
    exists m, fillMapWithPSF_refDir psf integral g radius energy = Ok m /\ length m = g_npix g /\
      (forall p, (p < g_npix g)%nat -> nth_error m p = Some (raw p / total (g_npix g) raw * integral (Rmin radius 15) energy)) /\
      total (g_npix g) (fun p => nth p m 0) = integral (Rmin radius 15) energy.
  Proof.
    intros g radius energy near centre raw Hd Hc Hn Hcc R1 R2 R3 R4 Ht.
    assert (RE : forall p, raw p = PsfuMaps.raw psf g near (fun _ => centre) energy p).
    { intros p. unfold PsfuMaps.raw. destruct (Nat.eqb_spec p (g_centre g)) as [->|N]; [exact R1|].
      destruct (existsb (Nat.eqb p) (g_disc g)) eqn:E1.
      - apply existsb_In in E1. destruct (existsb (Nat.eqb p) (g_neighbours g)) eqn:E2; [apply existsb_In in E2; auto|].
        apply R3; auto. rewrite <- existsb_In, E2. discriminate.
      - apply R4; auto. rewrite <- existsb_In, E1. discriminate. }
    assert (TE : total (g_npix g) raw = total (g_npix g) (PsfuMaps.raw psf g near (fun _ => centre) energy)) by (apply total_ext; auto).
    destruct (refDir_ok psf integral peakValue g radius energy near (fun _ => centre) Hd Hc Hn Hcc ltac:(now rewrite <- TE)) as (m & Em & Lm & Hm).
    exists m. split; [exact Em|]. split; [exact Lm|]. rewrite <- TE in Hm.
    assert (HM : forall p, (p < g_npix g)%nat -> nth_error m p = Some (raw p / total (g_npix g) raw * integral (Rmin radius 15) energy)) by (intros p Hp; rewrite Hm, RE by assumption; reflexivity).
    split; [exact HM|].
    rewrite (total_ext _ _ (fun p => integral (Rmin radius 15) energy / total (g_npix g) raw * raw p)).
    - rewrite total_scale. field. exact Ht.
    - intros p Hp. rewrite (nth_error_nth _ _ 0 (HM p Hp)). field. exact Ht.
  Qed.

  (** The map of a convolved source: the full-sky PSF at the map's own pixels, times the exposure. *)
  Theorem C72_hpx_map : forall cfg src (hm : PsfuModel.hpx_map Dir) g crad energies ex mm0 kmin kmax (e : nat -> R) full,
    c_convolve cfg = true -> s_use_psf src = true -> (kmin <= kmax <= length energies)%nat ->
    (forall k, (k < length energies)%nat -> nth_error energies k = Some (e k)) ->
    (forall k, (kmin <= k < kmax)%nat -> fillMapWithPSF_refDir psf integral g (crad (e k)) (e k) = Ok (full k)) ->
    (forall k p, (kmin <= k < kmax)%nat -> In p (h_global hm) -> (p < length (full k))%nat) ->
    exists m, hpx_map cfg src hm g crad energies (Some ex) [] mm0 kmin (Z.of_nat kmax) = Ok (Some m) /\
      length m = ((kmax - kmin) * length (h_global hm))%nat /\
      forall k i p, (kmin <= k < kmax)%nat -> nth_error (h_global hm) i = Some p -> exists v, nth_error (full k) p = Some v /\
        nth_error m ((k - kmin) * length (h_global hm) + i) = Some (v * (if s_use_exposure src then ex (e k) else 1)).
  Proof.
    intros cfg src hm g crad energies ex mm0 kmin kmax e full Hc Hu Hk He Hf Hg.
    pose proof (hpx_convolved Dir psf integral cfg src hm g crad energies ex mm0 kmin (Z.of_nat kmax) (fun k i => nth (nth i (h_global hm) 0%nat) (full k) 0)) as W.
    cbv zeta in W. replace (last_layer (Z.of_nat kmax) energies) with kmax in W by (unfold last_layer; destruct (Z.ltb_spec (Z.of_nat kmax) 0); lia).
    destruct (W Hc Hu Hk) as (m & Em & Hm).
    - intros k Hk'. exists (full k). rewrite (nth_error_nth _ _ 0 (He k ltac:(lia))). split; [now apply Hf|]. intros i Hi. apply nth_error_nth'. apply Hg; [exact Hk'|now apply nth_In].
    - exists m. split; [exact Em|]. split; [apply Hm|]. intros k i p Hk' Hp. assert (Hi : (i < length (h_global hm))%nat) by (apply nth_error_Some; congruence).
      exists (nth p (full k) 0). split; [apply nth_error_nth', Hg; [exact Hk'|eapply nth_error_In; eauto]|].
      rewrite (holds_error _ _ _ _ (k - kmin) i Hm) by lia. rewrite (nth_error_nth _ _ _ Hp). replace (kmin + (k - kmin))%nat with k by lia.
      rewrite (nth_error_nth _ _ 0 (He k ltac:(lia))). reflexivity.
  Qed.

  (** A source that is not convolved: the map does not hold the exposure but the exposure times the solid angle of a pixel. *)
  Theorem C72_hpx_point_refuted : forall cfg src (hm : PsfuModel.hpx_map Dir) g crad energies ex kmax (e : nat -> R) c,
    c_convolve cfg && s_use_psf src = false -> s_use_exposure src = true -> (kmax <= length energies)%nat -> (forall k, (k < length energies)%nat -> nth_error energies k = Some (e k)) ->
    h_local hm (h_pixel hm (s_dir src)) = Some c -> (c < length (h_global hm))%nat ->
    exists m, hpx_map cfg src hm g crad energies (Some ex) [] [] 0 (Z.of_nat kmax) = Ok (Some m) /\
      forall k, (k < kmax)%nat -> nth_error m (k * length (h_global hm) + c) = Some (h_omega hm * ex (e k)) /\
        (h_omega hm <> 1 -> ex (e k) <> 0 -> h_omega hm * ex (e k) <> ex (e k)).
  Proof.
    intros cfg src hm g crad energies ex kmax e c Hc Hu Hk He Hl Hcn.
    pose proof (hpx_point Dir psf integral cfg src hm g crad energies ex [] 0 (Z.of_nat kmax) c) as W. cbv zeta in W.
    replace (last_layer (Z.of_nat kmax) energies) with kmax in W by (unfold last_layer; destruct (Z.ltb_spec (Z.of_nat kmax) 0); lia).
    destruct (W Hc ltac:(lia) Hl Hcn) as (m & Em & Hm). exists m. split; [exact Em|]. rewrite Nat.sub_0_r in Hm. intros k Hk'.
    rewrite (holds_error _ _ _ _ k c Hm) by assumption. rewrite Nat.eqb_refl, Hu. cbn [plus]. rewrite (nth_error_nth _ _ 0 (He k ltac:(lia))). split; [reflexivity|].
    intros H1 H2 H3. apply H1. apply (Rmult_eq_reg_r (ex (e k))); [lra|exact H2].
  Qed.
End Props.
Print Assumptions C72_offsets.
Print Assumptions C72_sub_pixels.
Print Assumptions C72_undistorted.
Print Assumptions C72_adaptive.
Print Assumptions C72_annular.
Print Assumptions C72_centre.
Print Assumptions C72_radius.
Print Assumptions C72_map.
Print Assumptions C72_corrected.
Print Assumptions C72_reuse_refuted.
Print Assumptions C72_partial_range_refuted.
Print Assumptions C72_point.
Print Assumptions C72_verbose_refuted.
Print Assumptions C72_one_row_refuted.
Print Assumptions C72_annular_refuted.
Print Assumptions C72_hpx_psf.
Print Assumptions C72_hpx_map.
Print Assumptions C72_hpx_point_refuted.

(** Without an exposure map the exposure is read from the PSF by position.  fillSingleSourceMap (SourceMapCache.cxx 433-455) builds the PSF on
    the energies extended downwards for energy dispersion, so the first layer of the map gets the exposure of an energy below its own. *)
Theorem C72_psf_exposure_refuted : exists (ex : R -> R) (extended energies : list R), extended = 50 :: energies /\ ex 50 <> ex 100 /\
  makePointSourceMap_wcs unit (fun _ _ => 0) (fun _ _ => 0) (fun _ _ => 0) (fun _ => 0)
    (mkConfig true false Adaptive 0 0 false) (mkSource tt true true)
    (mkData [mkPixel tt 1 1 1] 1 1 1 [tt] (fun _ _ => true) (fun _ => (1, 1))) energies None (map ex extended) [] 0 (-1)
  = Ok [ex 50; ex 100] /\ energies = [100; 200].
Proof.
  exists (fun e => e), [50; 100; 200], [100; 200]. split; [reflexivity|]. split; [lra|]. split; [|reflexivity].
  unfold makePointSourceMap_wcs, createOffsetMap. cbn -[INR sqrt Rltb].
  replace (1 * sqrt ((1 - INR 1) * ((1 - INR 1) * 1) + (1 - INR 1) * ((1 - INR 1) * 1))) with 0.
  2:{ cbn [INR]. replace ((1 - 1) * ((1 - 1) * 1) + (1 - 1) * ((1 - 1) * 1)) with 0 by ring. rewrite sqrt_0. ring. }
  destruct (Rltb_spec (1 / 1000000) 0) as [C|_]; [lra|]. unfold find_pixel. cbn -[INR sqrt Rltb].
  destruct (Rltb_spec 0 0) as [C|_]; [lra|]. cbn -[INR sqrt Rltb].
  replace (0 / 2) with 0 by lra. rewrite cos_0. destruct (Rltb_spec (1 - 1 / 2 / PI) 1) as [_|C]; [reflexivity|].
  exfalso. apply C. assert (0 < 1 / 2 / PI) by (apply Rdiv_lt_0_compat; [lra|apply PI_RGT_0]). lra.
Qed.
Print Assumptions C72_psf_exposure_refuted.

(** Concrete maps: directions are points of a line, one degree apart. *)
Definition step (a b : nat) : R := if (a =? b)%nat then 0 else INR (a - b + (b - a)) * PI / 180.
Definition three_by_two (p : nat) : pixel nat := mkPixel p 1 (INR (p mod 3 + 1)) (INR (p / 3 + 1)).
Definition small_map (within : bool) : data_map nat :=
  mkData (map three_by_two (seq 0 6)) 3 2 1 [0%nat; 5%nat] (fun _ _ => within) (fun _ => (1, 1)).

Lemma step_deg a b : step a b * 180 / PI = INR (a - b + (b - a)).
Proof. unfold step. pose proof PI_RGT_0. destruct (Nat.eqb_spec a b) as [->|N]; [rewrite Nat.sub_diag; cbn; lra|field; lra]. Qed.

Lemma small_pixels w j : (j < length (d_pixels (small_map w)))%nat -> nth_error (d_pixels (small_map w)) j = Some (three_by_two j).
Proof. intros H. unfold small_map in *. cbn [d_pixels] in *. rewrite map_length, seq_length in H. rewrite nth_error_map. do 6 (destruct j as [|j]; [reflexivity|]). lia. Qed.

Lemma small_offsets w dir : exists z, createOffsetMap nat step dir (small_map w) = Ok z /\ table 2 3 z.
Proof. destruct (C72_offsets nat step dir (small_map w) eq_refl) as (z & E & T & _). eauto. Qed.

Lemma small_radius w : maxPsfRadius nat step 2%nat (small_map w) = Ok 2.
Proof.
  destruct (C72_radius nat step 2%nat (small_map w)) as (r & b & E & Hb & -> & H); [discriminate|]. rewrite E. f_equal.
  destruct Hb as [<-|[<-|[]]]; rewrite step_deg; [reflexivity|]. exfalso. specialize (H 0%nat (or_introl eq_refl)). rewrite !step_deg in H. cbn in H. lra.
Qed.

(** Six pixels, two energies, a PSF of one over one plus the separation. *)
Example C72_map_case : exists m,
  makePointSourceMap_wcs nat step (fun e s => e / (1 + s)) (fun r e => r) (fun _ => 1) (mkConfig true true Pixel_center 0 0 false)
    (mkSource 2%nat true true) (small_map false) [10; 20] (Some (fun e => 3 * e)) [] [] 1 2 = Ok m /\ nth_error m 4 = Some (20 / (1 + 2) * 1 * (3 * 20)).
Proof.
  destruct (small_offsets false 2%nat) as (z & Ez & _).
  edestruct (C72_map nat step (fun e s => e / (1 + s)) (fun r e => r) (fun _ => 1) (mkConfig true true Pixel_center 0 0 false)
    (mkSource 2%nat true true) (small_map false) [10; 20] (fun e => 3 * e) 1 2 2 z 2 three_by_two (fun k => nth k [10; 20] 0)
    (fun k j => nth k [10; 20] 0 / (1 + step 2 j * 180 / PI))) as (m & Em & _ & Hm).
  - now right.
  - cbn; lia.
  - apply small_pixels.
  - intros [|[|k]] H; cbn in H; try lia; reflexivity.
  - reflexivity.
  - reflexivity.
  - cbn; lia.
  - discriminate.
  - exact Ez.
  - apply small_radius.
  - intros k j Hk Hj. reflexivity.
  - now right.
  - exists m. split; [exact Em|]. specialize (Hm 1%nat 4%nat ltac:(lia) ltac:(cbn; lia)). cbn [Nat.sub Nat.mul plus] in Hm.
    rewrite Hm. rewrite step_deg. cbn. repeat f_equal; lra.
Qed.

(** With corrections the five pixels within two degrees hold three times the energy (the exposure) times the integral. *)
Example C72_corrected_case : exists m,
  makePointSourceMap_wcs nat step (fun e s => e / (1 + s)) (fun r e => r / 4) (fun _ => 1) (mkConfig true true Pixel_center 0 0 false)
    (mkSource 2%nat true true) (small_map true) [10; 20] (Some (fun e => 3 * e)) [] [] 0 (-1) = Ok m /\
  total_if (fun j => (j <=? 4)%nat) 6 (fun j => nth (1 * 6 + j) m 0) = 3 * 20 * (2 / 4).
Proof.
  destruct (small_offsets true 2%nat) as (z & Ez & _).
  edestruct (C72_corrected nat step (fun e s => e / (1 + s)) (fun r e => r / 4) (fun _ => 1) (mkConfig true true Pixel_center 0 0 false)
    (mkSource 2%nat true true) (small_map true) [10; 20] (fun e => 3 * e) 0 2 (-1)%Z z 2 three_by_two (fun k => nth k [10; 20] 0)
    (fun k j => nth k [10; 20] 0 / (1 + step 2 j * 180 / PI))) as (m & Em & _ & Hm).
  - left. split; [lia|reflexivity].
  - cbn; lia.
  - apply small_pixels.
  - intros [|[|k]] H; cbn in H; try lia; reflexivity.
  - reflexivity.
  - reflexivity.
  - cbn; lia.
  - discriminate.
  - exact Ez.
  - apply small_radius.
  - intros k j Hk Hj. reflexivity.
  - reflexivity.
  - reflexivity.
  - reflexivity.
  - reflexivity.
  - exists m. split; [exact Em|]. destruct (Hm 1%nat (fun j => (j <=? 4)%nat) ltac:(cbn; lia)) as (c & _ & HT & _).
    + intros j Hj. cbn [three_by_two p_dir s_dir]. rewrite step_deg, Nat.leb_le. change 2 with (INR 2).
      split; intros H; [apply le_INR; lia|apply INR_le in H; lia].
    + etransitivity; [apply HT|reflexivity]. apply Rgt_not_eq. unfold total_if, total. cbn [seq map fold_right length d_pixels small_map three_by_two p_omega Nat.leb nth].
      rewrite !step_deg. cbn. lra.
Qed.

(** Without convolution the exposure is in the pixel at the source. *)
Example C72_point_case : exists m,
  makePointSourceMap_wcs nat step (fun e s => e / (1 + s)) (fun r e => r / 4) (fun _ => 1) (mkConfig true false Pixel_center 0 0 false)
    (mkSource 2%nat true true) (small_map true) [10; 20] (Some (fun e => 3 * e)) [] [] 0 (-1) = Ok m /\ nth_error m 8 = Some (3 * 20) /\ nth_error m 7 = Some 0.
Proof.
  edestruct (C72_point nat step (fun e s => e / (1 + s)) (fun r e => r / 4) (fun _ => 1) (mkConfig true false Pixel_center 0 0 false)
    (mkSource 2%nat true true) (small_map true) [10; 20] (fun e => 3 * e) 0 2 (-1)%Z three_by_two (fun k => nth k [10; 20] 0)) as (m & c & Em & _ & Hc & Hmin & Hm).
  - left. split; [lia|reflexivity].
  - cbn; lia.
  - apply small_pixels.
  - intros [|[|k]] H; cbn in H; try lia; reflexivity.
  - reflexivity.
  - reflexivity.
  - cbn; lia.
  - exists m. split; [exact Em|].
    assert (c = 2%nat) as ->.
    { specialize (Hmin 2%nat ltac:(cbn; lia)). cbn [three_by_two p_dir s_dir] in Hmin. unfold step in Hmin. rewrite Nat.eqb_refl in Hmin.
      destruct (Nat.eqb_spec c 2) as [E|N]; [exact E|]. exfalso. assert (0 < INR (c - 2 + (2 - c)) * PI / 180); [|lra].
      apply Rdiv_lt_0_compat; [|lra]. apply Rmult_lt_0_compat; [apply lt_0_INR; lia|apply PI_RGT_0]. }
    destruct (Hm 1%nat 2%nat ltac:(lia) ltac:(cbn; lia)) as (v & Ev & _ & H1 & _). destruct (Hm 1%nat 1%nat ltac:(lia) ltac:(cbn; lia)) as (v' & Ev' & H2 & _).
    cbn [Nat.sub Nat.mul plus length d_pixels small_map map seq] in Ev, Ev'. split.
    + rewrite Ev. f_equal. rewrite H1; [reflexivity|reflexivity|]. cbn [three_by_two p_dir p_omega s_dir]. unfold step. rewrite Nat.eqb_refl.
      replace (0 / 2) with 0 by lra. rewrite cos_0. assert (0 < 1 / (2 * PI)) by (apply Rdiv_lt_0_compat; [lra|pose proof PI_RGT_0; lra]). lra.
    + rewrite Ev'. f_equal. apply H2. discriminate.
Qed.

(** An all-sky map of twelve pixels. *)
Example C72_hpx_case : exists m,
  fillMapWithPSF_refDir (fun e s => e - s) (fun r e => r / 20) (mkGrid 12 0 3 [3%nat; 4%nat; 7%nat; 9%nat] [4%nat; 7%nat] INR (fun d p => [INR p; 1])) 40 10 = Ok m /\
  total 12 (fun p => nth p m 0) = 15 / 20.
Proof.
  set (g := mkGrid 12 0 3 [3%nat; 4%nat; 7%nat; 9%nat] [4%nat; 7%nat] INR (fun d p => [INR p; 1])).
  edestruct (C72_hpx_psf (fun e s => e - s) (fun r e => r / 20) (fun _ => 1) g 40 10 (fun p => (0 + Rmax (10 - INR p) 0 + Rmax (10 - 1) 0) / INR 2)
    ((0 + Rmax (10 - INR 3) 0 + Rmax (10 - 1) 0) / INR 2)
    (fun p => if (p =? 3)%nat then (0 + Rmax (10 - INR 3) 0 + Rmax (10 - 1) 0) / INR 2
              else if existsb (Nat.eqb p) [4%nat; 7%nat] then (0 + Rmax (10 - INR p) 0 + Rmax (10 - 1) 0) / INR 2
              else if (p =? 9)%nat then Rmax (10 - INR p) 0 else 0)) as (m & Em & _ & _ & Hm).
  - intros p [<-|[<-|[<-|[<-|[]]]]]; cbn; lia.
  - cbn; lia.
  - reflexivity.
  - reflexivity.
  - reflexivity.
  - intros p N [<-|[<-|[<-|[<-|[]]]]] [E|[E|[]]]; try discriminate E; reflexivity.
  - intros p N [<-|[<-|[<-|[<-|[]]]]] H; cbn in N, H; try reflexivity; exfalso; tauto.
  - intros p N H. cbn [g_centre g_disc g] in N, H. destruct (Nat.eqb_spec p 3) as [->|_]; [congruence|]. cbn [existsb].
    destruct (Nat.eqb_spec p 4) as [->|_]; [exfalso; apply H; cbn; tauto|]. destruct (Nat.eqb_spec p 7) as [->|_]; [exfalso; apply H; cbn; tauto|].
    destruct (Nat.eqb_spec p 9) as [->|_]; [exfalso; apply H; cbn; tauto|reflexivity].
  - apply Rgt_not_eq. unfold total. cbn [g_npix g seq map fold_right Nat.eqb existsb orb]. pose proof (Rmax_r (10 - INR 3) 0). pose proof (Rmax_r (10 - INR 4) 0). pose proof (Rmax_r (10 - INR 7) 0). pose proof (Rmax_r (10 - INR 9) 0).
    pose proof (Rmax_l (10 - 1) 0). cbn [INR] in *. lra.
  - exists m. split; [exact Em|]. cbn [g_npix g] in Hm. rewrite Hm. rewrite Rmin_right by lra. reflexivity.
Qed.

(** An estimate that converges at once, and one that needs the 64 by 64 sub-pixels of the last round. *)
Example C72_adaptive_case : forall z, table 2 3 z ->
  psfValueEstimate nat step (fun e s => e) (fun r e => r) (fun _ => 1) (mkConfig true true Adaptive (1 / 1000) (1 / 1000000) false) 5 2%nat (three_by_two 4) (1, 1) z 1 = Ok 5.
Proof.
  intros z T.
  destruct (C72_adaptive nat step (fun e s => e) (fun r e => r) (fun _ => 1) (mkConfig true true Adaptive (1 / 1000) (1 / 1000000) false) 5 2%nat (three_by_two 4) (1, 1) z 1 (fun _ => 5)) as [_ H].
  - reflexivity.
  - reflexivity.
  - intros i Hi. assert (P : (0 < 2 ^ i)%nat) by (pose proof (Nat.pow_nonzero 2 i); lia).
    destruct (C72_sub_pixels (fun e s => e) 2 3 z 5 (1, 1) (p_x (three_by_two 4), p_y (three_by_two 4)) 1 (2 ^ i) ltac:(lia) ltac:(lia) T P) as (s & _ & ->).
    f_equal. assert (E : forall n c, total n (fun _ => c) = INR n * c) by (induction n as [|n IH]; intros c; [cbn; lra|rewrite total_S, IH, S_INR; lra]).
    rewrite !E, mult_INR. assert (INR (2 ^ i) <> 0) by (apply not_0_INR; lia). field. assumption.
  - destruct H as (m & _ & H & _); [|exact H]. cbn [c_peak]. destruct (Req_EM_T 1 0); [lra|]. lra.
Qed.

(** A pixel at the source and one three degrees away. *)
Example C72_annular_case :
  (exists v theta, psfValueEstimate nat step (fun e s => e) (fun r e => r) (fun _ => 1) (mkConfig true true Annular 0 0 false) 5 2%nat (three_by_two 2) (1, 1) [] 1 = Ok v /\ v * cone theta = theta) /\
  (exists v a b, psfValueEstimate nat step (fun e s => e) (fun r e => r) (fun _ => 1) (mkConfig true true Annular 0 0 false) 5 2%nat (mkPixel 5%nat ((PI / 180) * (PI / 180)) 1 1) (1, 1) [] 1 = Ok v /\ v * (cone b - cone a) = b - a /\ a = 3 - 1 / 2 /\ b = 3 + 1 / 2).
Proof.
  pose proof PI_RGT_0 as HP. pose proof (PI_4) as HP4. split.
  - destruct (C72_annular nat step (fun e s => e) (fun r e => r) (fun _ => 1) (mkConfig true true Annular 0 0 false) 5 2%nat (three_by_two 2) (1, 1) [] 1 eq_refl) as [H _].
    destruct H as (v & th & E & _ & _ & V).
    + cbn [three_by_two p_omega]. pose proof PI2_1. lra.
    + cbn [three_by_two p_omega p_dir]. rewrite step_deg, sqrt_1. cbn. apply Rmult_le_pos; [|lra]. apply Rmult_le_pos; [lra|]. left. apply Rinv_0_lt_compat. lra.
    + exists v, th. split; [exact E|exact V].
  - destruct (C72_annular nat step (fun e s => e) (fun r e => r) (fun _ => 1) (mkConfig true true Annular 0 0 false) 5 2%nat (mkPixel 5%nat ((PI / 180) * (PI / 180)) 1 1) (1, 1) [] 1 eq_refl) as [_ H].
    cbn [p_omega p_dir] in H. rewrite step_deg in H.
    assert (W : sqrt (PI / 180 * (PI / 180)) * 180 / PI = 1) by (rewrite sqrt_square by (apply Rmult_le_pos; lra); field; lra).
    rewrite W in H. cbn [Nat.sub plus] in H. replace (INR 3) with 3 in H by (cbn; lra).
    destruct H as (v & E & V); [apply Rmult_lt_0_compat; apply Rmult_lt_0_compat; lra|lra|lra|]. exists v, (3 - 1 / 2), (3 + 1 / 2). auto.
Qed.

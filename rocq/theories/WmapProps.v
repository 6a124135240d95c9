(** C68: look-ups in a sky map.

    Pixel coordinates of centres are 1, 2, ..., n1 and 1, 2, ..., n2, as in FITS;
    columns, rows and planes are counted from zero in [pixel]. *)
From Coq Require Import Reals List Lia Lra ZArith.
From Flocq Require Import Core.
From Verif Require Import Base AccumModel AccumProofs EvtModel EvtProofs MpsfSpec MpsfProofs WmapModel WmapSpec WmapProofs.
Import ListNotations.
Local Open Scope R_scope.
Local Open Scope list_scope.

(** A map as it is read from a file: the image has the announced shape. *)
Definition well_shaped (w : wmap) : Prop :=
  shaped (w_image w) (w_n1 w) (w_n2 w) (length (w_energies w)).

(** ** Directions *)

(** Directions without pixel coordinates, and coordinates more than half a
    pixel away from the outermost centres, give zero. *)
Theorem C68_outside : forall w k, (k < length (w_energies w))%nat ->
  value_plane w None (Z.of_nat k) = Ok 0 /\
  forall x y, (w_periodic w = false /\ (x < 1 / 2 \/ INR (w_n1 w) + 1 / 2 < x)) \/ y < 1 / 2 \/ INR (w_n2 w) + 1 / 2 < y ->
    value_plane w (Some (x, y)) (Z.of_nat k) = Ok 0 /\ insideMap w (x, y) = false.
Proof.
  intros w k Hk. split.
  - unfold value_plane. rewrite index_fine by lia. reflexivity.
  - intros x y H. split; [apply value_off; [lia|exact H]|]. unfold insideMap.
    match goal with |- negb ?c = _ => assert (c = true) as ->; [|reflexivity] end.
    destruct H as [(HP & [H|H])|[H|H]].
    + rewrite HP. destruct (Rltb_spec x (1 / 2)); [reflexivity|lra].
    + rewrite HP. destruct (Rltb_spec (INR (w_n1 w) + 1 / 2) x); [now rewrite Bool.orb_true_r|lra].
    + destruct (Rltb_spec y (1 / 2)); [now rewrite Bool.orb_true_r|lra].
    + destruct (Rltb_spec (INR (w_n2 w) + 1 / 2) y); [now rewrite Bool.orb_true_r|lra].
Qed.

(** Which coordinates count as inside. *)
Theorem C68_inside : forall w x y, insideMap w (x, y) = true <->
  (w_periodic w = true \/ 1 / 2 <= x <= INR (w_n1 w) + 1 / 2) /\ 1 / 2 <= y <= INR (w_n2 w) + 1 / 2.
Proof.
  intros w x y. unfold insideMap. destruct (w_periodic w); cbn [negb andb orb];
    destruct (Rltb_spec y (1 / 2)); destruct (Rltb_spec (INR (w_n2 w) + 1 / 2) y); try (destruct (Rltb_spec x (1 / 2)); destruct (Rltb_spec (INR (w_n1 w) + 1 / 2) x)); cbn [negb andb orb];
    (split; [intros H; try discriminate H|intros ([H1|H1] & H2); try discriminate H1; try lra; try reflexivity]); try (split; [tauto || (right; lra)|lra]).
Qed.

(** Without interpolation: the pixel the coordinates lie in. *)
Theorem C68_nearest : forall w k j i v x y, well_shaped w -> w_periodic w = false -> w_interpolate w = false ->
  pixel (w_image w) k j i v -> in_column x i -> in_column y j -> value_plane w (Some (x, y)) (Z.of_nat k) = Ok v.
Proof. intros. now apply (value_nearest w) with j i. Qed.

(** With interpolation, between four centres: bilinear in the four pixels. *)
Theorem C68_bilinear : forall w k j i v00 v10 v01 v11 x y, well_shaped w -> w_periodic w = false -> w_interpolate w = true ->
  pixel (w_image w) k j i v00 -> pixel (w_image w) k j (S i) v10 -> pixel (w_image w) k (S j) i v01 -> pixel (w_image w) k (S j) (S i) v11 ->
  INR i + 1 <= x < INR i + 2 -> INR j + 1 <= y < INR j + 2 ->
  value_plane w (Some (x, y)) (Z.of_nat k) = Ok (bilinear v00 v10 v01 v11 (x - (INR i + 1)) (y - (INR j + 1))).
Proof.
  intros w k j i v00 v10 v01 v11 x y W HP HI P00 P10 P01 P11 Hx Hy.
  assert (X : xcoord w x = x) by (unfold xcoord; now rewrite HP).
  pose proof (value_bilinear w W k j i v00 v10 v01 v11 x y P00 P10 P01 P11 HI) as Q. rewrite X in Q. now apply Q.
Qed.

(** In the outer half of the outermost pixels: the nearest pixel. *)
Theorem C68_border : forall w k j i v x y, well_shaped w -> w_periodic w = false ->
  pixel (w_image w) k j i v -> in_column x i -> in_column y j ->
  x < 1 \/ INR (w_n1 w) <= x \/ y < 1 \/ INR (w_n2 w) <= y -> value_plane w (Some (x, y)) (Z.of_nat k) = Ok v.
Proof. intros. now apply (value_border w) with j i. Qed.

(** At the centre of a pixel: the pixel, interpolated or not. *)
Theorem C68_centre : forall w k j i v, well_shaped w -> w_periodic w = false -> pixel (w_image w) k j i v ->
  value_plane w (Some (INR i + 1, INR j + 1)) (Z.of_nat k) = Ok v.
Proof.
  intros w k j i v W HP HV. assert (Ci : in_column (INR i + 1) i) by (unfold in_column; lra). assert (Cj : in_column (INR j + 1) j) by (unfold in_column; lra).
  destruct (pixel_bound w W _ _ _ _ HV) as (Hk & Hj & Hi).
  destruct (w_interpolate w) eqn:HI; [|now apply C68_nearest with j i].
  destruct (Nat.eq_dec (S i) (w_n1 w)) as [E1|E1]; [apply C68_border with j i; try assumption; right; left; rewrite <- E1, S_INR; lra|].
  destruct (Nat.eq_dec (S j) (w_n2 w)) as [E2|E2]; [apply C68_border with j i; try assumption; right; right; right; rewrite <- E2, S_INR; lra|].
  destruct (pixel_ex w W k j (S i) Hk Hj ltac:(lia)) as (v10 & P10). destruct (pixel_ex w W k (S j) i Hk ltac:(lia) Hi) as (v01 & P01).
  destruct (pixel_ex w W k (S j) (S i) Hk ltac:(lia) ltac:(lia)) as (v11 & P11).
  rewrite (C68_bilinear w k j i v v10 v01 v11) by (assumption || lra). f_equal. unfold bilinear. ring.
Qed.

(** Every look-up gives a value between the smallest and the largest pixel of
    the plane (and zero), and none fails. *)
Theorem C68_bounds : forall w k pix lo hi, well_shaped w -> (k < length (w_energies w))%nat -> (0 < w_n1 w)%nat ->
  (forall x y, pix = Some (x, y) -> w_periodic w = true -> 0 <= x) ->
  (forall j i v, pixel (w_image w) k j i v -> lo <= v <= hi) -> lo <= 0 <= hi ->
  exists v, value_plane w pix (Z.of_nat k) = Ok v /\ lo <= v <= hi.
Proof.
  intros w k [(x, y)|] lo hi W Hk H1 HX HB H0.
  - apply value_bounds; try assumption. intros HP. now apply (HX x y).
  - exists 0. split; [|exact H0]. now apply C68_outside.
Qed.

(** ** Maps all around the sky *)

Lemma fmod_turns x n m : 0 <= x < n -> fmod (x + INR m * n) n = x.
Proof.
  intros Hx. induction m as [|m IH].
  - simpl. rewrite Rmult_0_l, Rplus_0_r. now apply fmod_small.
  - rewrite S_INR. replace (x + (INR m + 1) * n) with (x + INR m * n + n) by ring. rewrite fmod_shift; [exact IH|lra|]. pose proof (pos_INR m). assert (0 <= INR m * n) by (apply Rmult_le_pos; lra). lra.
Qed.

(** Adding whole turns changes nothing: between two columns of the map the
    value is bilinear, and so it is between the last column and the first. *)
Theorem C68_wrap : forall w k j m v00 v10 v01 v11 x y (turns : nat), well_shaped w -> w_periodic w = true -> w_interpolate w = true ->
  INR j + 1 <= y < INR j + 2 ->
  (forall i, pixel (w_image w) k j i v00 -> pixel (w_image w) k j (S i) v10 -> pixel (w_image w) k (S j) i v01 -> pixel (w_image w) k (S j) (S i) v11 ->
    INR i + 1 <= x < INR i + 2 ->
    value_plane w (Some (x + INR turns * INR (w_n1 w), y)) (Z.of_nat k) = Ok (bilinear v00 v10 v01 v11 (x - (INR i + 1)) (y - (INR j + 1)))) /\
  (w_n1 w = S m -> pixel (w_image w) k j m v00 -> pixel (w_image w) k j 0 v10 -> pixel (w_image w) k (S j) m v01 -> pixel (w_image w) k (S j) 0 v11 ->
    0 <= x < 1 ->
    value_plane w (Some (x + INR turns * INR (w_n1 w), y)) (Z.of_nat k) = Ok (bilinear v00 v10 v01 v11 x (y - (INR j + 1)))).
Proof.
  intros w k j m v00 v10 v01 v11 x y turns W HP HI Hy. split.
  - intros i P00 P10 P01 P11 Hx. destruct (pixel_bound w W _ _ _ _ P11) as (_ & _ & Hi). pose proof (pos_INR i).
    assert (INR i + 2 <= INR (w_n1 w)) by (replace (INR i + 2) with (INR (S (S i))) by (rewrite !S_INR; ring); apply le_INR; lia).
    assert (X : xcoord w (x + INR turns * INR (w_n1 w)) = x) by (unfold xcoord; rewrite HP; apply fmod_turns; lra).
    pose proof (value_bilinear w W k j i v00 v10 v01 v11 (x + INR turns * INR (w_n1 w)) y P00 P10 P01 P11 HI) as Q. rewrite X in Q. now apply Q.
  - intros HM P00 P10 P01 P11 Hx. assert (1 <= INR (w_n1 w)) by (rewrite HM, S_INR; pose proof (pos_INR m); lra).
    assert (X : xcoord w (x + INR turns * INR (w_n1 w)) = x) by (unfold xcoord; rewrite HP; apply fmod_turns; lra).
    pose proof (value_seam w W k j m v00 v10 v01 v11 (x + INR turns * INR (w_n1 w)) y HP HM P00 P10 P01 P11 HI) as Q. rewrite X in Q. apply Q; [|exact Hy]. apply (trunc_at x 0). simpl. lra.
Qed.

(** Refuted: the pixel nearest to a direction.  Without interpolation (and in
    the outer halves of the first and last rows) a map all around the sky
    answers the left half of its seam, and with it the centre of its last
    column, with the first column. *)
Theorem C68_last_column_refuted : forall w k j v x y (turns : nat), well_shaped w -> w_periodic w = true -> w_interpolate w = false ->
  pixel (w_image w) k j 0 v -> 0 <= x < 1 / 2 -> in_column y j ->
  value_plane w (Some (x + INR turns * INR (w_n1 w), y)) (Z.of_nat k) = Ok v.
Proof.
  intros w k j v x y turns W HP HI HV Hx Hy. destruct (pixel_bound w W _ _ _ _ HV) as (Hk & Hj & Hi).
  assert (1 <= INR (w_n1 w)) by (apply (le_INR 1); lia). assert (INR j + 1 <= INR (w_n2 w)) by (rewrite <- S_INR; apply le_INR; lia). pose proof (pos_INR j).
  rewrite value_on; [|lia|].
  2:{ unfold in_column in Hy. intros [(Q & _)|[Q|Q]]; [congruence|lra|lra]. }
  cbv zeta. rewrite HI. cbn [negb]. unfold xcoord. rewrite HP, fmod_turns by lra. now apply (pixelValue_left w W k j).
Qed.

(** Refuted: values between the pixels, for every direction.  Pixel coordinates
    below zero occur when the reference pixel is not in the middle of the map.
    Just below zero the value is extrapolated, from -1 on the look-up fails. *)
Theorem C68_negative_refuted : forall w k j m v00 v10 v01 v11 x y, well_shaped w -> w_periodic w = true -> w_interpolate w = true -> w_n1 w = S m ->
  pixel (w_image w) k j m v00 -> pixel (w_image w) k j 0 v10 -> pixel (w_image w) k (S j) m v01 -> pixel (w_image w) k (S j) 0 v11 ->
  INR j + 1 <= y < INR j + 2 ->
  (-1 < x <= 0 -> - INR (w_n1 w) < x -> v00 = 0 -> v01 = 0 -> value_plane w (Some (x, y)) (Z.of_nat k) = Ok (x * ((1 - (y - (INR j + 1))) * v10 + (y - (INR j + 1)) * v11))) /\
  (- INR (w_n1 w) < x <= -1 -> value_plane w (Some (x, y)) (Z.of_nat k) = Throw).
Proof.
  intros w k j m v00 v10 v01 v11 x y W HP HI HM P00 P10 P01 P11 Hy.
  assert (N0 : 1 <= INR (w_n1 w)) by (rewrite HM, S_INR; pose proof (pos_INR m); lra). split.
  - intros Hx Hn -> ->. assert (X : xcoord w x = x) by (unfold xcoord; rewrite HP; apply fmod_small_neg; lra).
    assert (T : Ztrunc x = 0%Z) by (rewrite Ztrunc_ceil by lra; apply Zceil_imp; simpl; lra).
    pose proof (value_seam w W k j m 0 v10 0 v11 x y HP HM P00 P10 P01 P11 HI) as Q. rewrite X in Q. rewrite (Q T Hy). f_equal. unfold bilinear. ring.
  - intros Hx. destruct (pixel_bound w W _ _ _ _ P11) as (Hk & Hj & Hi).
    assert (INR j + 2 <= INR (w_n2 w)) by (replace (INR j + 2) with (INR (S (S j))) by (rewrite !S_INR; ring); apply le_INR; lia). pose proof (pos_INR j).
    rewrite value_on; [|lia|]. 2:{ intros [(Q & _)|[Q|Q]]; [congruence|lra|lra]. }
    cbv zeta. rewrite HI, HP. cbn [negb andb].
    assert (X : xcoord w x = x) by (unfold xcoord; rewrite HP; apply fmod_small_neg; lra). rewrite X.
    assert (T : (Ztrunc x <= -1)%Z). { rewrite Ztrunc_ceil by lra. apply Zceil_glb. simpl. lra. }
    rewrite (trunc_at y (S j)) by (rewrite S_INR; lra).
    destruct (Z.ltb_spec (Z.of_nat (S j)) 1); [lia|]. destruct (Z.leb_spec (Z.of_nat (w_n2 w)) (Z.of_nat (S j))); [lia|]. cbn [orb].
    destruct P00 as (plane & r0 & E & E0 & F00). unfold vec_get. rewrite E. cbn [obind]. destruct (Z.eqb_spec (Ztrunc x) 0); [lia|].
    replace (Z.of_nat (S j) - 1)%Z with (Z.of_nat j) by lia. rewrite (at_z_nat _ _ _ E0). cbn [obind]. rewrite at_z_neg by lia. reflexivity.
Qed.

(** Which maps are taken to go all around: for a positive width of the columns
    those within half a degree of the full circle ... *)
Theorem C68_full_circle_partial : forall n1 cdelt, 0 <= INR n1 * cdelt ->
  (is_periodic n1 cdelt = true <-> 359 + 1 / 2 <= INR n1 * cdelt < 360 + 1 / 2).
Proof.
  intros n1 cdelt H. unfold is_periodic. set (p := INR n1 * cdelt) in *. destruct (Rlt_le_dec p (1 / 2)) as [L|L].
  - rewrite round_low by lra. simpl. split; [discriminate|lra].
  - destruct (column_of p L) as (i & Hi). rewrite (round_at p i Hi). unfold in_column in Hi. rewrite Z.eqb_eq. split.
    + intros E. assert (i = 359)%nat as -> by lia. change (INR 359) with (INR (Pos.to_nat 359)) in Hi. rewrite INR_IPR in Hi. change (IPR 359) with 359 in Hi. lra.
    + intros Q. assert (E : Z.of_nat i = 359%Z); [|lia].
      rewrite INR_IZR_INZ in Hi. assert ((358 < Z.of_nat i)%Z) by (apply lt_IZR; lra). assert ((Z.of_nat i < 360)%Z) by (apply lt_IZR; lra). lia.
Qed.

(** ... Refuted for the usual case of a negative width: the same map with its
    longitudes counted the other way does not wrap when the columns fall the
    least bit short of the circle, and wraps when they overshoot it by nearly
    one degree. *)
Theorem C68_full_circle_refuted : forall n1 cdelt, INR n1 * cdelt < 0 ->
  (is_periodic n1 cdelt = true <-> -361 < INR n1 * cdelt <= -360).
Proof.
  intros n1 cdelt H. unfold is_periodic. set (p := INR n1 * cdelt) in *. rewrite Z.eqb_eq. unfold my_round.
  pose proof (Zceil_ub p) as U. pose proof (Zceil_lb p) as L. rewrite Ztrunc_ceil by lra.
  assert (Zceil p <= 0)%Z as T0 by (apply Zceil_glb; simpl; lra).
  destruct (Rleb_spec (1 / 2) (p - IZR (Zceil p))) as [Q|Q]; [lra|]. split.
  - intros E. assert (Zceil p = -360)%Z as C by lia. rewrite C in *. change (IZR (-360)) with (-360) in *. lra.
  - intros E. assert (Zceil p = -360)%Z as ->; [|reflexivity]. assert (-361 < Zceil p)%Z by (apply lt_IZR; change (IZR (-361)) with (-361); lra). assert (Zceil p < -359)%Z by (apply lt_IZR; change (IZR (-359)) with (-359); lra). lia.
Qed.

(** ** Energies *)

Lemma plane_bounded (pl : list (list R)) : exists h, 0 <= h /\ forall j row i p, nth_error pl j = Some row -> nth_error row i = Some p -> p <= h.
Proof.
  assert (UB0 : forall rows : list R, exists h, 0 <= h /\ forall i p, nth_error rows i = Some p -> p <= h).
  { induction rows as [|r l (h & Hh & IH)]; [exists 0; split; [lra|]; intros i p Q; destruct i; discriminate|].
    exists (Rmax r h). split; [apply Rle_trans with h; [exact Hh|apply Rmax_r]|]. intros [|i] p Q; simpl in Q; [injection Q as <-; apply Rmax_l|apply Rle_trans with h; [now apply (IH i)|apply Rmax_r]]. }
  induction pl as [|r l (h & Hh & IH)]; [exists 0; split; [lra|]; intros j row i p Q; destruct j; discriminate|].
  destruct (UB0 r) as (g & Hg & IG). exists (Rmax g h). split; [apply Rle_trans with h; [exact Hh|apply Rmax_r]|].
  intros [|j] row i p Q F; simpl in Q; [injection Q as <-; apply Rle_trans with g; [now apply (IG i)|apply Rmax_l]|apply Rle_trans with h; [now apply (IH j row i)|apply Rmax_r]].
Qed.

(** Non-negative pixels give non-negative values, and every look-up succeeds. *)
Lemma plane_nonneg w k pix : well_shaped w -> (k < length (w_energies w))%nat -> (0 < w_n1 w)%nat ->
  (forall x y, pix = Some (x, y) -> w_periodic w = true -> 0 <= x) ->
  (forall j i v, pixel (w_image w) k j i v -> 0 <= v) -> exists v, value_plane w pix (Z.of_nat k) = Ok v /\ 0 <= v.
Proof.
  intros W Hk H1 HX HV. destruct (nth_error (w_image w) k) as [pl|] eqn:Ep; [|apply nth_error_None in Ep; destruct W; lia].
  destruct (plane_bounded pl) as (h & Hh & IH).
  destruct (C68_bounds w k pix 0 h W Hk H1 HX) as (v & E & B).
  - intros j i p HP. split; [now apply (HV j i)|]. destruct HP as (pl' & row & A & B & C). rewrite Ep in A. injection A as <-. now apply (IH j row i).
  - lra.
  - exists v. split; [exact E|lra].
Qed.

(** Every look-up in a plane that is there succeeds. *)
Lemma plane_found w k pix : well_shaped w -> (k < length (w_energies w))%nat -> (0 < w_n1 w)%nat ->
  (forall x y, pix = Some (x, y) -> w_periodic w = true -> 0 <= x) -> exists v, value_plane w pix (Z.of_nat k) = Ok v.
Proof.
  intros W Hk H1 HX. destruct (nth_error (w_image w) k) as [pl|] eqn:Ep; [|apply nth_error_None in Ep; destruct W; lia].
  destruct (plane_bounded pl) as (h & Hh & IH). destruct (plane_bounded (map (map Ropp) pl)) as (g & Hg & IG).
  destruct (C68_bounds w k pix (- g) h W Hk H1 HX) as (v & E & B); [|lra|exists v; exact E].
  intros j i p (pl' & row & P1 & P2 & P3). rewrite Ep in P1. injection P1 as <-. split; [|now apply (IH j row i)].
  assert (- p <= g); [|lra]. apply (IG j (map Ropp row) i); now apply map_nth_error.
Qed.

Lemma energy_fine w e lo hi : nth_error (w_energies w) 0 = Some lo -> nth_error (w_energies w) (length (w_energies w) - 1) = Some hi -> lo <= e <= hi -> check_energy w e = Ok tt.
Proof.
  intros H0 H1 He. unfold check_energy. destruct (w_enforce w); [|reflexivity]. unfold front, back, vec_get. rewrite H0. cbn [obind].
  destruct (w_energies w) as [|z l] eqn:EE; [discriminate H0|]. rewrite H1. cbn [obind].
  destruct (Rltb_spec e lo); [lra|]. destruct (Rltb_spec hi e); [lra|]. reflexivity.
Qed.

Lemma between_fine w e k a b : increasing (w_energies w) -> nth_error (w_energies w) k = Some a -> nth_error (w_energies w) (S k) = Some b -> a <= e <= b -> check_energy w e = Ok tt.
Proof.
  intros HI Ha Hb He. assert (Kl : (S k < length (w_energies w))%nat) by (apply nth_error_Some; congruence).
  pose proof (nth_error_nth _ _ 0 Ha) as Na. pose proof (nth_error_nth _ _ 0 Hb) as Nb.
  apply energy_fine with (nth 0 (w_energies w) 0) (nth (length (w_energies w) - 1) (w_energies w) 0); [apply nth_error_nth'; lia|apply nth_error_nth'; lia|].
  assert (nth 0 (w_energies w) 0 <= a). { rewrite <- Na. destruct (Nat.eq_dec k 0) as [->|K0]; [lra|]. left. apply (ascending_nth _ HI); lia. }
  assert (b <= nth (length (w_energies w) - 1) (w_energies w) 0). { rewrite <- Nb. destruct (Nat.eq_dec (S k) (length (w_energies w) - 1)) as [->|K0]; [lra|]. left. apply (ascending_nth _ HI); lia. }
  lra.
Qed.

(** What is left of the look-up once the pair of planes is known. *)
Lemma value_pair w pix e k a b y1 : w_naxes w = 3%nat -> increasing (w_energies w) -> 0 <= e -> check_energy w e = Ok tt ->
  pair_for (w_energies w) e k a b -> value_plane w pix (Z.of_nat k) = Ok y1 ->
  value w pix e = if Reqb e a then Ok y1 else obind (value_plane w pix (Z.of_nat (S k))) (fun y2 => interpolatePowerLaw e a b y1 y2).
Proof.
  intros HN HI He CE PF EV. unfold value. destruct (Rltb_spec e 0); [lra|]. cbn [obind]. rewrite CE. cbn [obind]. rewrite (pair_lower w e k a b HI HN PF). cbn [obind].
  rewrite EV. cbn [obind]. destruct PF as (Ha & Hb & _). rewrite Nat2Z.id. unfold vec_get. rewrite Ha. cbn [obind]. destruct (Reqb e a); [reflexivity|].
  replace (Z.of_nat k + 1)%Z with (Z.of_nat (S k)) by lia. rewrite Nat2Z.id, Hb. reflexivity.
Qed.

(** The value at a tabulated energy is that of its plane. *)
Theorem C68_node : forall w pix k e v, well_shaped w -> w_naxes w = 3%nat -> increasing (w_energies w) -> (1 < length (w_energies w))%nat -> (0 < w_n1 w)%nat ->
  (forall a, In a (w_energies w) -> 0 < a) -> (forall k j i p, pixel (w_image w) k j i p -> 0 <= p) ->
  (forall x y, pix = Some (x, y) -> w_periodic w = true -> 0 <= x) ->
  nth_error (w_energies w) k = Some e -> value_plane w pix (Z.of_nat k) = Ok v -> value w pix e = Ok v.
Proof.
  intros w pix k e v W HN HI HL H1 HE HV HX Hk EV.
  assert (Ge : 0 < e) by (apply HE; eapply nth_error_In; eassumption).
  assert (Kl : (k < length (w_energies w))%nat) by (apply nth_error_Some; congruence).
  destruct (Nat.eq_dec (S k) (length (w_energies w))) as [EL|EL].
  - destruct k as [|k]; [lia|]. destruct (nth_error (w_energies w) k) as [a|] eqn:Ha; [|apply nth_error_None in Ha; lia].
    assert (Hae : a < e) by (apply (HI k); assumption). assert (Ga : 0 < a) by (apply HE; eapply nth_error_In; eassumption).
    assert (PF : pair_for (w_energies w) e k a e) by (split; [exact Ha|split; [exact Hk|split; [left; lra|right; exact EL]]]).
    destruct (plane_nonneg w k pix W ltac:(lia) H1 HX (HV k)) as (y1 & E1 & B1). destruct (plane_nonneg w (S k) pix W ltac:(lia) H1 HX (HV (S k))) as (y2 & E2 & B2).
    rewrite EV in E2. injection E2 as <-.
    rewrite (value_pair w pix e k a e y1 HN HI ltac:(lra) (between_fine w e k a e HI Ha Hk ltac:(lra)) PF E1).
    destruct (Reqb_spec e a); [lra|]. rewrite EV. cbn [obind].
    destruct (Req_dec y1 0) as [Z1|Z1]; [|destruct (Req_dec v 0) as [Z2|Z2]].
    + destruct (linear_ok e a e y1 v Hae (or_introl Z1) ltac:(lra)) as (y & -> & L). f_equal. unfold on_line in L. apply Rmult_eq_reg_r with (e - a); lra.
    + destruct (linear_ok e a e y1 v Hae (or_intror Z2) ltac:(lra)) as (y & -> & L). f_equal. unfold on_line in L. apply Rmult_eq_reg_r with (e - a); lra.
    + destruct (power_law_ok e a e y1 v Ge Ga Ge ltac:(lra) ltac:(lra) ltac:(lra)) as (y & -> & (nn & g & A & B & C)). congruence.
  - destruct (nth_error (w_energies w) (S k)) as [b|] eqn:Hb; [|apply nth_error_None in Hb; lia].
    assert (Hab : e < b) by (apply (HI k); assumption).
    assert (PF : pair_for (w_energies w) e k e b) by (split; [exact Hk|split; [exact Hb|split; [left; lra|left; lra]]]).
    rewrite (value_pair w pix e k e b v HN HI ltac:(lra) (between_fine w e k e b HI Hk Hb ltac:(lra)) PF EV). destruct (Reqb_spec e e); [reflexivity|congruence].
Qed.

(** Elsewhere the value lies on the power law through the values of the two
    planes: the two around the energy, or the first or last two.  Between the
    two energies it lies between the two values. *)
Theorem C68_power_law : forall w pix e k a b y1 y2, w_naxes w = 3%nat -> increasing (w_energies w) -> 0 < a -> 0 < e -> w_enforce w = false \/ a <= e <= b ->
  pair_for (w_energies w) e k a b -> value_plane w pix (Z.of_nat k) = Ok y1 -> value_plane w pix (Z.of_nat (S k)) = Ok y2 -> 0 < y1 -> 0 < y2 ->
  exists y, value w pix e = Ok y /\ on_power_law a y1 b y2 e y /\ (a <= e <= b -> Rmin y1 y2 <= y <= Rmax y1 y2).
Proof.
  intros w pix e k a b y1 y2 HN HI Ga Ge HB PF E1 E2 G1 G2. pose proof PF as (Ha & Hb & _). assert (Hab : a < b) by (apply (HI k); assumption).
  assert (CE : check_energy w e = Ok tt). { destruct HB as [HB|HB]; [unfold check_energy; now rewrite HB|]. now apply (between_fine w e k a b). }
  rewrite (value_pair w pix e k a b y1 HN HI ltac:(lra) CE PF E1).
  destruct (power_law_ok e a b y1 y2 Ge Ga ltac:(lra) ltac:(lra) G1 G2) as (y & Ey & PL).
  assert (G : exists y', (if Reqb e a then Ok y1 else obind (value_plane w pix (Z.of_nat (S k))) (fun y2 => interpolatePowerLaw e a b y1 y2)) = Ok y' /\ on_power_law a y1 b y2 e y').
  { destruct (Reqb_spec e a) as [->|N].
    - exists y1. split; [reflexivity|]. destruct PL as (n & g & A & B & C). exists n, g. auto.
    - rewrite E2. cbn [obind]. exists y. split; assumption. }
  destruct G as (y' & E' & P'). exists y'. split; [exact E'|]. split; [exact P'|]. intros He. now apply (power_law_between a y1 b y2 e).
Qed.

(** Where one of the two values is zero, they are joined by a straight line,
    and the value stays zero beyond the zero. *)
Theorem C68_zero : forall w pix e k a b y1 y2, w_naxes w = 3%nat -> increasing (w_energies w) -> 0 < a -> 0 < e -> w_enforce w = false \/ a <= e <= b ->
  pair_for (w_energies w) e k a b -> value_plane w pix (Z.of_nat k) = Ok y1 -> value_plane w pix (Z.of_nat (S k)) = Ok y2 -> y1 = 0 \/ y2 = 0 ->
  (a <= e <= b -> exists y, value w pix e = Ok y /\ on_line a y1 b y2 e y) /\
  ((e < a /\ y1 = 0) \/ (b < e /\ y2 = 0) -> value w pix e = Ok 0).
Proof.
  intros w pix e k a b y1 y2 HN HI Ga Ge HB PF E1 E2 HZ. pose proof PF as (Ha & Hb & _). assert (Hab : a < b) by (apply (HI k); assumption).
  assert (CE : check_energy w e = Ok tt). { destruct HB as [HB|HB]; [unfold check_energy; now rewrite HB|]. now apply (between_fine w e k a b). }
  rewrite (value_pair w pix e k a b y1 HN HI ltac:(lra) CE PF E1). split.
  - intros He. destruct (Reqb_spec e a) as [->|N]; [exists y1; split; [reflexivity|unfold on_line; ring]|]. rewrite E2. cbn [obind]. now apply linear_ok.
  - intros HO. destruct (Reqb_spec e a) as [->|N]; [lra|]. rewrite E2. cbn [obind]. unfold interpolatePowerLaw.
    destruct (Reqb_spec y1 0) as [Z1|Z1]; destruct (Reqb_spec y2 0) as [Z2|Z2]; cbn [andb orb]; [reflexivity| | |tauto].
    + destruct (Rltb_spec e a); [reflexivity|]. exfalso. destruct HO as [(? & ?)|(? & ?)]; [lra|contradiction].
    + destruct (Rltb_spec b e); [now rewrite !Bool.andb_false_r|]. exfalso. destruct HO as [(? & ?)|(? & ?)]; [contradiction|lra].
Qed.

(** Non-negative maps have non-negative values at every direction and energy. *)
Theorem C68_nonnegative : forall w pix e y, well_shaped w -> increasing (w_energies w) -> (0 < w_n1 w)%nat ->
  (forall k j i p, pixel (w_image w) k j i p -> 0 <= p) -> (forall x y, pix = Some (x, y) -> w_periodic w = true -> 0 <= x) ->
  value w pix e = Ok y -> 0 <= y.
Proof.
  intros w pix e0 y W HI H1 HV HX. unfold value. destruct (if Rltb e0 0 then front (w_energies w) else Ok e0) as [e| |]; [|discriminate|discriminate]. cbn [obind].
  destruct (check_energy w e) as [[]| |]; [|discriminate|discriminate]. cbn [obind]. destruct (lower_plane w e) as [k| |]; [|discriminate|discriminate]. cbn [obind].
  assert (NN : forall k v e, value_plane w pix k = Ok v -> vec_get (w_energies w) (Z.to_nat k) = Ok e -> 0 <= v).
  { intros kk v ee EV EE. unfold value_plane in EV. destruct (index_refused w kk) eqn:IR; [discriminate|].
    assert (0 <= kk)%Z by (unfold index_refused in IR; destruct (Z.ltb_spec kk 0); [discriminate|assumption]).
    unfold vec_get in EE. destruct (nth_error (w_energies w) (Z.to_nat kk)) eqn:EN; [|discriminate]. assert (Z.to_nat kk < length (w_energies w))%nat by (apply nth_error_Some; congruence).
    destruct (plane_nonneg w (Z.to_nat kk) pix W H0 H1 HX (HV _)) as (v' & E' & B'). rewrite Z2Nat.id in E' by assumption. unfold value_plane in E'. rewrite IR, EV in E'. injection E' as <-. exact B'. }
  destruct (value_plane w pix k) as [y1| |] eqn:E1; [|discriminate|discriminate]. cbn [obind].
  destruct (vec_get (w_energies w) (Z.to_nat k)) as [a| |] eqn:Ea; [|discriminate|discriminate]. cbn [obind]. pose proof (NN _ _ _ E1 Ea) as G1.
  destruct (Reqb e a); [intros H; injection H as <-; exact G1|].
  destruct (value_plane w pix (k + 1)) as [y2| |] eqn:E2; [|discriminate|discriminate]. cbn [obind].
  destruct (vec_get (w_energies w) (Z.to_nat (k + 1))) as [b| |] eqn:Eb; [|discriminate|discriminate]. cbn [obind]. pose proof (NN _ _ _ E2 Eb) as G2.
  assert (0 <= k)%Z. { unfold value_plane in E1. destruct (index_refused w k) eqn:IR; [discriminate|]. unfold index_refused in IR. destruct (Z.ltb_spec k 0); [discriminate|assumption]. }
  assert (a < b). { unfold vec_get in Ea, Eb. replace (Z.to_nat (k + 1)) with (S (Z.to_nat k)) in Eb by lia. destruct (nth_error (w_energies w) (Z.to_nat k)) eqn:N1; [|discriminate]. destruct (nth_error (w_energies w) (S (Z.to_nat k))) eqn:N2; [|discriminate]. injection Ea as ->. injection Eb as ->. now apply (HI (Z.to_nat k)). }
  intros H'. now apply (nonneg_ok e a b y1 y2).
Qed.

(** With enforced boundaries an energy off the range is refused; a negative
    energy stands for the first one. *)
Theorem C68_enforced : forall w pix lo hi, nth_error (w_energies w) 0 = Some lo -> nth_error (w_energies w) (length (w_energies w) - 1) = Some hi -> 0 <= lo ->
  (forall e, w_enforce w = true -> 0 <= e -> e < lo \/ hi < e -> value w pix e = Throw /\ mapIntegral w e = Throw) /\
  (forall e, e < 0 -> value w pix e = value w pix lo).
Proof.
  intros w pix lo hi H0 H1 HL. split.
  - intros e HE He HO. assert (CE : check_energy w e = Throw).
    { unfold check_energy. rewrite HE. unfold front, back, vec_get. rewrite H0. cbn [obind]. destruct (w_energies w) as [|z l] eqn:EE; [discriminate H0|]. rewrite H1. cbn [obind].
      destruct (Rltb_spec e lo); [reflexivity|]. destruct (Rltb_spec hi e); [reflexivity|lra]. }
    split; [|unfold mapIntegral; now rewrite CE]. unfold value. destruct (Rltb_spec e 0); [lra|]. cbn [obind]. now rewrite CE.
  - intros e He. unfold value at 1. destruct (Rltb_spec e 0); [|lra]. unfold value. destruct (Rltb_spec lo 0); [lra|].
    assert (F : front (w_energies w) = Ok lo) by (unfold front, vec_get; now rewrite H0). now rewrite F.
Qed.

(** ** Planes that are not there *)

Lemma no_plane w k pix : (Z.of_nat k <= Z.of_nat (length (w_energies w)))%Z -> nth_error (w_image w) k = None -> value_plane w pix (Z.of_nat k) = Ok 0 \/ value_plane w pix (Z.of_nat k) = UB.
Proof.
  intros Hk HN. unfold value_plane. rewrite index_fine by lia. destruct pix as [(px, y)|]; [|now left]. cbv zeta.
  assert (PV : forall x, pixelValue w x y (Z.of_nat k) = Ok 0 \/ pixelValue w x y (Z.of_nat k) = UB).
  { intros x. unfold pixelValue. rewrite index_fine by lia. destruct ((negb (w_periodic w) && _ || _ || _)%bool); [now left|]. rewrite Nat2Z.id. unfold vec_get. rewrite HN. now right. }
  destruct ((negb (w_periodic w) && _ || _ || _)%bool); [now left|]. destruct (negb (w_interpolate w)); [apply PV|].
  destruct (negb (w_periodic w) && _)%bool; [apply PV|]. destruct (_ || _)%bool; [apply PV|]. rewrite Nat2Z.id. unfold vec_get. rewrite HN. now right.
Qed.

Lemma no_plane_inside w k i j x y : (Z.of_nat k <= Z.of_nat (length (w_energies w)))%Z -> nth_error (w_image w) k = None -> w_periodic w = false ->
  in_column x i -> in_column y j -> (i < w_n1 w)%nat -> (j < w_n2 w)%nat -> value_plane w (Some (x, y)) (Z.of_nat k) = UB.
Proof.
  intros Hk HN HP Hx Hy Hi Hj. rewrite value_on; [|lia|now apply (in_columns_on w x y i j)]. cbv zeta. unfold xcoord. rewrite HP. cbn [negb andb].
  assert (PV : pixelValue w x y (Z.of_nat k) = UB).
  { unfold pixelValue. rewrite index_fine by lia. rewrite (round_at x i Hx), (round_at y j Hy). cbv zeta.
    replace (Z.of_nat i + 1 - 1)%Z with (Z.of_nat i) by lia. replace (Z.of_nat j + 1 - 1)%Z with (Z.of_nat j) by lia.
    destruct (Z.ltb_spec (Z.of_nat i) 0); [lia|]. destruct (Z.leb_spec (Z.of_nat (w_n1 w)) (Z.of_nat i)); [lia|].
    destruct (Z.ltb_spec (Z.of_nat j) 0); [lia|]. destruct (Z.leb_spec (Z.of_nat (w_n2 w)) (Z.of_nat j)); [lia|].
    cbn [orb andb]. rewrite Bool.andb_false_r. cbn [orb]. rewrite Nat2Z.id. unfold vec_get. now rewrite HN. }
  destruct (negb (w_interpolate w)); [exact PV|]. destruct (_ || _)%Z%bool; [exact PV|]. destruct (_ || _)%Z%bool; [exact PV|]. unfold vec_get. now rewrite HN.
Qed.

(** Indices of planes: negative ones and those beyond the number of energies
    are refused ... *)
Theorem C68_index_partial : forall w pix k, (k < 0 \/ Z.of_nat (length (w_energies w)) < k)%Z -> value_plane w pix k = Throw.
Proof.
  intros w pix k H. unfold value_plane. assert (index_refused w k = true) as ->; [|reflexivity]. unfold index_refused.
  destruct (Z.ltb_spec k 0); [reflexivity|]. destruct (Z.ltb_spec (Z.of_nat (length (w_energies w))) k); [reflexivity|lia].
Qed.

(** ... but, refuted, the number of energies itself is let through and read
    past the end of the image. *)
Theorem C68_index_refuted : forall w i j x y, well_shaped w -> w_periodic w = false ->
  in_column x i -> in_column y j -> (i < w_n1 w)%nat -> (j < w_n2 w)%nat ->
  value_plane w (Some (x, y)) (Z.of_nat (length (w_energies w))) = UB.
Proof.
  intros w i j x y (L & _) HP Hx Hy Hi Hj. apply (no_plane_inside w _ i j); try assumption; [lia|]. apply nth_error_None. lia.
Qed.

(** Refuted: a map with one plane has a value at every energy.  At any other
    energy than its own the look-up reads a second plane. *)
Theorem C68_single_refuted : forall w pix e e0 y, well_shaped w -> w_energies w = [e0] -> w_enforce w = false -> 0 <= e -> e <> e0 ->
  value_plane w pix 0 = Ok y -> value w pix e = UB /\ mapIntegral w e = UB.
Proof.
  intros w pix e e0 y (L & _) HE HF He Hne HV. rewrite HE in L. simpl in L. split.
  - unfold value. destruct (Rltb_spec e 0); [lra|]. cbn [obind]. unfold check_energy. rewrite HF. cbn [obind].
    unfold lower_plane. rewrite HE. cbn [length Nat.ltb Nat.leb]. rewrite Bool.andb_false_r. cbn [obind]. rewrite HV. cbn [obind]. unfold vec_get at 1. cbn [Z.to_nat nth_error obind].
    destruct (Reqb_spec e e0); [contradiction|]. change (0 + 1)%Z with (Z.of_nat 1).
    destruct (no_plane w 1 pix) as [E|E]; [rewrite HE; simpl; lia|apply nth_error_None; lia|rewrite E; reflexivity|rewrite E; reflexivity].
  - unfold mapIntegral. unfold check_energy. rewrite HF. cbn [obind]. rewrite HE. cbn [length Nat.ltb Nat.leb obind]. cbn. destruct (Reqb_spec e e0); [contradiction|reflexivity].
Qed.

(** ** Integrals over the planes *)

Theorem C68_integral : forall w e k a b i1 i2, increasing (w_energies w) -> pair_for (w_energies w) e k a b -> length (w_integrals w) = length (w_energies w) ->
  nth_error (w_integrals w) k = Some i1 -> nth_error (w_integrals w) (S k) = Some i2 -> 0 < i1 -> 0 < i2 -> 0 < a -> 0 < e -> w_enforce w = false \/ a <= e <= b ->
  exists v, mapIntegral w e = Ok v /\ on_power_law a i1 b i2 e v.
Proof. exact mapIntegral_pair. Qed.

(** At a tabulated energy: the tabulated integral, whatever it is. *)
Theorem C68_integral_node : forall w k e i, increasing (w_energies w) -> (1 < length (w_energies w))%nat -> length (w_integrals w) = length (w_energies w) ->
  nth_error (w_energies w) k = Some e -> nth_error (w_integrals w) k = Some i -> mapIntegral w e = Ok i.
Proof.
  intros w k e i HI HL HLen He Hi. assert (Kl : (k < length (w_energies w))%nat) by (apply nth_error_Some; congruence). pose proof (nth_error_nth _ _ 0 He) as Ne.
  unfold mapIntegral.
  assert (CE : check_energy w e = Ok tt).
  { apply energy_fine with (nth 0 (w_energies w) 0) (nth (length (w_energies w) - 1) (w_energies w) 0); [apply nth_error_nth'; lia|apply nth_error_nth'; lia|]. rewrite <- Ne. split.
    - destruct (Nat.eq_dec k 0) as [->|K0]; [lra|]. left. apply (ascending_nth _ HI); lia.
    - destruct (Nat.eq_dec k (length (w_energies w) - 1)) as [->|K0]; [lra|]. left. apply (ascending_nth _ HI); lia. }
  rewrite CE. cbn [obind]. rewrite (proj2 (Nat.ltb_lt _ _)) by lia.
  assert (U : std_upper_bound (w_energies w) e = Ok (S k)).
  { apply ub_at; [exact HI|lia|lra|]. intros Q. rewrite <- Ne. apply (ascending_nth _ HI); lia. }
  rewrite U. cbn [obind]. replace (Z.of_nat (S k) - 1)%Z with (Z.of_nat k) by lia. destruct (Z.ltb_spec (Z.of_nat k) 0); [lia|]. rewrite Nat2Z.id. unfold vec_at. rewrite He. cbn [obind].
  destruct (Reqb_spec e e); [|congruence]. now rewrite Hi.
Qed.

(** Refuted: between two tabulated energies there is an integral.  Where one of
    the two is zero the logarithm fails. *)
Theorem C68_integral_refuted : forall w e k a b i1 i2, increasing (w_energies w) -> w_enforce w = false -> nth_error (w_energies w) k = Some a -> nth_error (w_energies w) (S k) = Some b ->
  a < e < b -> nth_error (w_integrals w) k = Some i1 -> nth_error (w_integrals w) (S k) = Some i2 -> i1 = 0 \/ i2 = 0 -> mapIntegral w e = UB.
Proof.
  intros w e k a b i1 i2 HI HF Ha Hb He H1 H2 HZ. assert (Kl : (S k < length (w_energies w))%nat) by (apply nth_error_Some; congruence).
  pose proof (nth_error_nth _ _ 0 Ha) as Na. pose proof (nth_error_nth _ _ 0 Hb) as Nb.
  unfold mapIntegral, check_energy. rewrite HF. cbn [obind]. rewrite (proj2 (Nat.ltb_lt _ _)) by lia.
  assert (U : std_upper_bound (w_energies w) e = Ok (S k)) by (apply ub_at; [exact HI|lia|lra|intros _; lra]).
  rewrite U. cbn [obind]. replace (Z.of_nat (S k) - 1)%Z with (Z.of_nat k) by lia. destruct (Z.ltb_spec (Z.of_nat k) 0); [lia|]. rewrite Nat2Z.id. unfold vec_at. rewrite Ha. cbn [obind].
  destruct (Reqb_spec e a); [lra|]. destruct (Z.eqb_spec (Z.of_nat k) (Z.of_nat (length (w_energies w)) - 1)); [lia|]. destruct (Z.ltb_spec (Z.of_nat k) 0); [lia|].
  rewrite Nat2Z.id, Nat.add_1_r. unfold vec_get. rewrite Ha, Hb, H1, H2. cbn [obind].
  assert ((Rleb i1 0 || Rleb i2 0)%bool = true) as Q. { destruct (Rleb_spec i1 0); [reflexivity|]. destruct (Rleb_spec i2 0); [reflexivity|]. destruct HZ; lra. }
  rewrite <- Bool.orb_assoc, Q, Bool.orb_true_r. reflexivity.
Qed.

(** ** The product with an exposure *)

Lemma row_ok plane j n1 expo acc row l : nth_error plane j = Some row -> length row = n1 -> (forall i, In i l -> (i < n1)%nat) ->
  mfold (fun (r : list R) i => match expo i j with None => Ok (r ++ [0]) | Some f => obind (vec_get plane j) (fun q => obind (vec_get q i) (fun v => Ok (r ++ [v * f]))) end) l acc =
  Ok (acc ++ map (fun i => match expo i j with None => 0 | Some f => nth i row 0 * f end) l).
Proof.
  intros Hr HL. revert acc. induction l as [|i l IH]; intros acc Hl; [cbn [mfold map]; now rewrite app_nil_r|].
  cbn [mfold map]. assert (K : match expo i j with None => Ok (acc ++ [0]) | Some f => obind (vec_get plane j) (fun q => obind (vec_get q i) (fun v => Ok (acc ++ [v * f]))) end = Ok (acc ++ [match expo i j with None => 0 | Some f => nth i row 0 * f end])).
  { destruct (expo i j) as [f|]; [|reflexivity]. unfold vec_get. rewrite Hr. cbn [obind]. rewrite (nth_error_nth' row 0) by (rewrite HL; apply Hl; now left). reflexivity. }
  rewrite K. cbn [obind]. rewrite IH by (intros; apply Hl; now right). now rewrite <- app_assoc.
Qed.

(** Every pixel is multiplied by its exposure; pixels that are not on the sky
    are zero. *)
Theorem C68_weighed : forall w expo k, well_shaped w -> (k < length (w_energies w))%nat ->
  exists w', convolve w expo (Z.of_nat k) = Ok w' /\ shaped (w_image w') (w_n1 w) (w_n2 w) 1 /\
    forall j i v, pixel (w_image w) k j i v -> pixel (w_image w') 0 j i (match expo i j with Some f => v * f | None => 0 end).
Proof.
  intros w expo k (L & WP) Hk. destruct (nth_error (w_image w) k) as [plane|] eqn:Ep; [|apply nth_error_None in Ep; lia]. destruct (WP k plane Ep) as (L2 & WR).
  set (newrow := fun j => map (fun i => match expo i j with None => 0 | Some f => nth i (nth j plane []) 0 * f end) (seq 0 (w_n1 w))).
  assert (WG : weigh_plane plane (w_n1 w) (w_n2 w) expo = Ok (map newrow (seq 0 (w_n2 w)))).
  { unfold weigh_plane. match goal with |- mfold ?st _ _ = _ => set (step := st) end.
    assert (G : forall l acc, (forall j, In j l -> (j < w_n2 w)%nat) -> mfold step l acc = Ok (acc ++ map newrow l)); [|apply (G _ []); intros j Hj; apply in_seq in Hj; lia].
    induction l as [|j l IH]; intros acc Hl; [cbn [mfold map]; now rewrite app_nil_r|].
    assert (Jl : (j < w_n2 w)%nat) by (apply Hl; now left). pose proof (nth_error_nth' plane [] (n := j) ltac:(lia)) as Er.
    assert (K : step acc j = Ok (acc ++ [newrow j])).
    { unfold step. rewrite (row_ok plane j (w_n1 w) expo [] (nth j plane []) _ Er (WR j _ Er)) by (intros i Hi; apply in_seq in Hi; lia). reflexivity. }
    cbn [mfold map]. rewrite K. cbn [obind]. rewrite IH by (intros; apply Hl; now right). now rewrite <- app_assoc. }
  unfold convolve. rewrite index_fine by lia. rewrite Nat2Z.id. unfold vec_get. rewrite Ep. cbn [obind]. rewrite WG. cbn [obind]. eexists. split; [reflexivity|]. cbn [w_image].
  assert (NR : forall j, (j < w_n2 w)%nat -> nth_error (map newrow (seq 0 (w_n2 w))) j = Some (newrow j)).
  { intros j Hj. apply map_nth_error. rewrite (nth_error_nth' _ 0%nat) by (rewrite seq_length; lia). now rewrite seq_nth by lia. }
  split.
  - split; [reflexivity|]. intros [|[|q]] pl Q; [|discriminate Q|discriminate Q]. injection Q as <-. split; [now rewrite map_length, seq_length|].
    intros j row Q. assert (Jl : (j < w_n2 w)%nat). { rewrite <- (seq_length (w_n2 w) 0), <- (map_length newrow). apply nth_error_Some. congruence. }
    rewrite NR in Q by exact Jl. injection Q as <-. unfold newrow. now rewrite map_length, seq_length.
  - intros j i v (pl & row & A & B & C). rewrite Ep in A. injection A as <-. assert (Jl : (j < w_n2 w)%nat) by (rewrite <- L2; apply nth_error_Some; congruence).
    assert (Il : (i < w_n1 w)%nat) by (rewrite <- (WR j row B); apply nth_error_Some; congruence).
    eexists. exists (newrow j). split; [reflexivity|]. split; [now apply NR|]. unfold newrow. rewrite (nth_error_nth _ _ [] B). erewrite map_nth_error; [|rewrite (nth_error_nth' _ 0%nat) by (rewrite seq_length; lia); rewrite seq_nth by lia; reflexivity].
    rewrite Nat.add_0_l. now rewrite (nth_error_nth _ _ 0 C).
Qed.

(** Refuted: the product is a map like any other.  It keeps all the energies of
    the map it was made from, and at any but the first reads planes it does
    not have. *)
Theorem C68_product_refuted : forall w expo k w' e e0 i j x y, well_shaped w -> (k < length (w_energies w))%nat -> (1 < length (w_energies w))%nat -> increasing (w_energies w) ->
  w_naxes w = 3%nat -> w_enforce w = false -> w_periodic w = false -> convolve w expo (Z.of_nat k) = Ok w' ->
  in_column x i -> in_column y j -> (i < w_n1 w)%nat -> (j < w_n2 w)%nat ->
  nth_error (w_energies w) 0 = Some e0 -> 0 <= e -> e <> e0 -> value w' (Some (x, y)) e = UB.
Proof.
  intros w expo k w' e e0 i j x y W Hk HL HI HN HF HP EC Hx Hy Hi Hj H0 He Hne.
  destruct (C68_weighed w expo k W Hk) as (w2 & EC2 & SH & _). rewrite EC in EC2. injection EC2 as <-.
  assert (FL : w_energies w' = w_energies w /\ w_naxes w' = 3%nat /\ w_enforce w' = false /\ w_periodic w' = false /\ w_n1 w' = w_n1 w /\ w_n2 w' = w_n2 w).
  { unfold convolve in EC. destruct (index_refused w (Z.of_nat k)); [discriminate|]. destruct (vec_get (w_image w) _); [|discriminate|discriminate]. cbn [obind] in EC. destruct (weigh_plane _ _ _ _); [|discriminate|discriminate]. cbn [obind] in EC. injection EC as <-. cbn. tauto. }
  destruct FL as (F1 & F2 & F3 & F4 & F5 & F6). pose proof (proj1 SH) as SL.
  assert (NP : forall q, (0 < q)%nat -> (q <= length (w_energies w))%nat -> value_plane w' (Some (x, y)) (Z.of_nat q) = UB).
  { intros q Q1 Q2. apply (no_plane_inside w' q i j); try assumption; [rewrite F1; lia|apply nth_error_None; lia|now rewrite F5|now rewrite F6]. }
  assert (PF : exists q a b, pair_for (w_energies w) e q a b /\ (S q < length (w_energies w))%nat).
  { destruct (Rlt_le_dec e (nth 0 (w_energies w) 0)) as [B|B].
    - exists 0%nat, (nth 0 (w_energies w) 0), (nth 1 (w_energies w) 0). split; [|lia]. split; [apply nth_error_nth'; lia|]. split; [apply nth_error_nth'; lia|]. split; [now right|left].
      pose proof (ascending_nth _ HI 0 1 ltac:(lia) ltac:(lia)). lra.
    - destruct (find_interval (w_energies w) e HI ltac:(intros Q; rewrite Q in HL; simpl in HL; lia) B) as (q & Q1 & Q2 & Q3).
      destruct (Nat.eq_dec (S q) (length (w_energies w))) as [QE|QE].
      + destruct q as [|q]; [lia|]. exists q, (nth q (w_energies w) 0), (nth (S q) (w_energies w) 0). split; [|lia]. split; [apply nth_error_nth'; lia|]. split; [apply nth_error_nth'; lia|].
        split; [left; pose proof (ascending_nth _ HI q (S q) ltac:(lia) ltac:(lia)); lra|now right].
      + exists q, (nth q (w_energies w) 0), (nth (S q) (w_energies w) 0). split; [|lia]. split; [apply nth_error_nth'; lia|]. split; [apply nth_error_nth'; lia|].
        split; [left; exact Q2|left; apply Q3; lia]. }
  destruct PF as (q & a & b & PF & Q). unfold value. destruct (Rltb_spec e 0); [lra|]. cbn [obind]. unfold check_energy. rewrite F3. cbn [obind].
  assert (LP : lower_plane w' e = Ok (Z.of_nat q)) by (apply pair_lower with a b; [now rewrite F1|exact F2|now rewrite F1]). rewrite LP. cbn [obind].
  destruct q as [|q].
  - destruct (value_plane w' (Some (x, y)) (Z.of_nat 0)) as [y1| |] eqn:E1; [| |reflexivity].
    + cbn [obind]. rewrite F1. unfold vec_get at 1. cbn [Z.of_nat Z.to_nat]. rewrite H0. cbn [obind]. destruct (Reqb_spec e e0); [contradiction|]. change (0 + 1)%Z with (Z.of_nat 1). rewrite NP by lia. reflexivity.
    + exfalso. set (w2 := mkWmap (w_image w') 3 (w_n1 w') (w_n2 w') (w_periodic w') (w_interpolate w') (w_enforce w') [e0] []).
      destruct (plane_found w2 0 (Some (x, y))) as (v & EV).
      * unfold well_shaped, w2. cbn [w_image w_n1 w_n2 w_energies length]. rewrite F5, F6. exact SH.
      * cbn. lia.
      * cbn. lia.
      * unfold w2. cbn. congruence.
      * assert (value_plane w' (Some (x, y)) (Z.of_nat 0) = value_plane w2 (Some (x, y)) (Z.of_nat 0)) as EQ; [|congruence].
        unfold value_plane, pixelValue. rewrite !index_fine by (cbn; lia). reflexivity.
  - rewrite NP by lia. reflexivity.
Qed.

(** A map of three by two pixels at two energies, also as one all around the
    sky, and its product with an exposure. *)
Example C68_case :
  let w p it := mkWmap [[[1; 2; 3]; [4; 5; 6]]; [[2; 4; 6]; [8; 10; 12]]] 3 3 2 p it false [100; 1000] [21; 42] in
  well_shaped (w false true) /\ increasing [100; 1000] /\
  value_plane (w false true) (Some (3 / 2, 3 / 2)) 0 = Ok 3 /\
  value_plane (w true true) (Some (0 + INR 1 * INR 3, 3 / 2)) 0 = Ok (9 / 2) /\
  value_plane (w true false) (Some (0 + INR 1 * INR 3, 1)) 0 = Ok 1 /\
  value (w false true) (Some (INR 0 + 1, INR 0 + 1)) 1000 = Ok 2 /\
  (exists v, value (w false true) (Some (INR 0 + 1, INR 0 + 1)) 500 = Ok v /\ 1 <= v <= 2) /\
  (exists v, mapIntegral (w false true) 500 = Ok v /\ on_power_law 100 21 1000 42 500 v) /\
  (exists w', convolve (w false true) (fun i j => if Nat.eqb i 2 then None else Some (INR j)) 1 = Ok w' /\ pixel (w_image w') 0 1 0 (8 * INR 1) /\ pixel (w_image w') 0 1 2 0 /\ value w' (Some (1, 1)) 500 = UB).
Proof.
  cbv zeta. set (w := fun p it => mkWmap _ 3 3 2 p it false _ _).
  assert (W : forall p it, well_shaped (w p it)).
  { intros p it. split; [reflexivity|]. intros [|[|[|k]]] pl H; try discriminate H; injection H as <-; (split; [reflexivity|]); intros [|[|[|j]]] row H; try discriminate H; injection H as <-; reflexivity. }
  assert (PX : forall p it k j i v pl row, nth_error (w_image (w p it)) k = Some pl -> nth_error pl j = Some row -> nth_error row i = Some v -> pixel (w_image (w p it)) k j i v).
  { intros p it k j i v pl row A B C. exists pl, row. auto. }
  assert (INC : increasing [100; 1000]). { intros [|[|[|i]]] a b H1 H2; try discriminate H2. injection H1 as <-. injection H2 as <-. lra. }
  assert (PF : pair_for [100; 1000] 500 0 100 1000) by (split; [reflexivity|split; [reflexivity|split; [left; lra|left; lra]]]).
  assert (NN : forall k j i p, pixel (w_image (w false true)) k j i p -> 0 <= p).
  { intros k j i p (pl & row & A & B & C). destruct k as [|[|[|k]]]; try discriminate A; injection A as <-; destruct j as [|[|[|j]]]; try discriminate B; injection B as <-;
      destruct i as [|[|[|[|i]]]]; try discriminate C; injection C as <-; lra. }
  split; [apply W|]. split; [exact INC|]. split; [|split; [|split; [|split; [|split; [|split]]]]].
  - refine (eq_trans (C68_bilinear (w false true) 0 0 0 1 2 4 5 (3 / 2) (3 / 2) (W _ _) eq_refl eq_refl _ _ _ _ _ _) _); try (eapply PX; reflexivity); simpl; try lra. f_equal. unfold bilinear. lra.
  - pose proof (C68_wrap (w true true) 0 0 2 3 1 6 4 0 (3 / 2) 1 (W _ _) eq_refl eq_refl) as Q. destruct Q as (_ & Q); [simpl; lra|].
    refine (eq_trans (Q eq_refl _ _ _ _ _) _); try (eapply PX; reflexivity); [lra|]. f_equal. unfold bilinear. simpl. lra.
  - refine (C68_last_column_refuted (w true false) 0 0 1 0 1 1 (W _ _) eq_refl eq_refl _ _ _); [eapply PX; reflexivity|lra|unfold in_column; simpl; lra].
  - apply (C68_node (w false true) _ 1 1000 2 (W _ _) eq_refl INC); try (simpl; lia); [intros a Ha; cbn in Ha; destruct Ha as [<-|[<-|[]]]; lra|exact NN|reflexivity|].
    apply (C68_centre (w false true) 1 0 0 2 (W _ _) eq_refl). eapply PX; reflexivity.
  - destruct (C68_power_law (w false true) (Some (INR 0 + 1, INR 0 + 1)) 500 0 100 1000 1 2) as (v & E & _ & B); try (exact PF); try reflexivity; try lra; try (now left); try exact INC.
    + apply (C68_centre (w false true) 0 0 0 1 (W _ _) eq_refl). eapply PX; reflexivity.
    + apply (C68_centre (w false true) 1 0 0 2 (W _ _) eq_refl). eapply PX; reflexivity.
    + exists v. split; [exact E|]. rewrite Rmin_left, Rmax_right in B by lra. apply B. lra.
  - apply (C68_integral (w false true) 500 0 100 1000 21 42); try reflexivity; try lra; try exact INC; try exact PF; now left.
  - destruct (C68_weighed (w false true) (fun i j => if Nat.eqb i 2 then None else Some (INR j)) 1 (W _ _) ltac:(simpl; lia)) as (w' & E & _ & P). exists w'. split; [exact E|]. split; [|split].
    + apply (P 1%nat 0%nat 8). eapply PX; reflexivity.
    + apply (P 1%nat 2%nat 12). eapply PX; reflexivity.
    + apply (C68_product_refuted (w false true) (fun i j => if Nat.eqb i 2 then None else Some (INR j)) 1 w' 500 100 0 0 1 1 (W _ _)); try reflexivity; try (simpl; lia); try lra; try exact INC; try exact E; unfold in_column; simpl; lra.
Qed.

Print Assumptions C68_outside.
Print Assumptions C68_inside.
Print Assumptions C68_nearest.
Print Assumptions C68_bilinear.
Print Assumptions C68_border.
Print Assumptions C68_centre.
Print Assumptions C68_bounds.
Print Assumptions C68_wrap.
Print Assumptions C68_last_column_refuted.
Print Assumptions C68_negative_refuted.
Print Assumptions C68_full_circle_partial.
Print Assumptions C68_full_circle_refuted.
Print Assumptions C68_node.
Print Assumptions C68_power_law.
Print Assumptions C68_zero.
Print Assumptions C68_nonnegative.
Print Assumptions C68_enforced.
Print Assumptions C68_index_partial.
Print Assumptions C68_index_refuted.
Print Assumptions C68_single_refuted.
Print Assumptions C68_integral.
Print Assumptions C68_integral_node.
Print Assumptions C68_integral_refuted.
Print Assumptions C68_weighed.
Print Assumptions C68_product_refuted.

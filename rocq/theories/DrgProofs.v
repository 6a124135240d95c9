From Verif Require Import Base AccumModel AccumProofs DrgModel DrgSpec.
From Coq Require Import Reals Lra Lia List Psatz.
Import ListNotations.
Local Open Scope R_scope.

Definition add3 (a b c : vec) (x y z : R) : vec :=
  (x * vx a + y * vx b + z * vx c, x * vy a + y * vy b + z * vy c, x * vz a + y * vz b + z * vz c).

Lemma PI180 x : x * 180 / PI * PI / 180 = x.
Proof. field. apply PI_neq0. Qed.

Lemma sincos x : sin x * sin x + cos x * cos x = 1.
Proof. pose proof (sin2_cos2 x) as H. unfold Rsqr in H. exact H. Qed.

Lemma east_val ra dec : east ra dec = (- sin (ra * PI / 180), cos (ra * PI / 180), 0).
Proof.
  unfold east, skydir. replace (0 * PI / 180) with 0 by field. replace ((ra + 90) * PI / 180) with (ra * PI / 180 + PI / 2) by field.
  rewrite cos_0, sin_0, cos_plus, sin_plus, cos_PI2, sin_PI2. repeat (f_equal; try ring).
Qed.
Lemma north_val ra dec : north ra dec = (- sin (dec * PI / 180) * cos (ra * PI / 180), - sin (dec * PI / 180) * sin (ra * PI / 180), cos (dec * PI / 180)).
Proof.
  unfold north, skydir. replace ((dec + 90) * PI / 180) with (dec * PI / 180 + PI / 2) by field.
  rewrite cos_plus, sin_plus, cos_PI2, sin_PI2. repeat (f_equal; try ring).
Qed.

Lemma skydir_unit ra dec : unit_vector (skydir ra dec).
Proof.
  unfold unit_vector, dot, skydir, vx, vy, vz; cbn [fst snd].
  pose proof (sincos (ra * PI / 180)). pose proof (sincos (dec * PI / 180)).
  set (ca := cos (ra * PI / 180)) in *. set (sa := sin (ra * PI / 180)) in *. set (cd := cos (dec * PI / 180)) in *. set (sd := sin (dec * PI / 180)) in *.
  replace (cd * ca * (cd * ca) + cd * sa * (cd * sa) + sd * sd) with (cd * cd * (sa * sa + ca * ca) + sd * sd) by ring.
  rewrite H. lra.
Qed.

(** The three directions are orthonormal. *)
Lemma frame ra dec : dot (ahead ra dec) (ahead ra dec) = 1 /\ dot (east ra dec) (east ra dec) = 1 /\ dot (north ra dec) (north ra dec) = 1 /\
  dot (ahead ra dec) (east ra dec) = 0 /\ dot (ahead ra dec) (north ra dec) = 0 /\ dot (east ra dec) (north ra dec) = 0.
Proof.
  split; [apply skydir_unit|]. split; [apply skydir_unit|]. split; [apply skydir_unit|].
  rewrite east_val, north_val. unfold ahead, skydir, dot, vx, vy, vz; cbn [fst snd].
  pose proof (sincos (ra * PI / 180)) as H.
  set (ca := cos (ra * PI / 180)) in *. set (sa := sin (ra * PI / 180)) in *. set (cd := cos (dec * PI / 180)) in *. set (sd := sin (dec * PI / 180)) in *.
  repeat split; try ring.
  replace (cd * ca * (- sd * ca) + cd * sa * (- sd * sa) + sd * cd) with (- (cd * sd * (sa * sa + ca * ca)) + sd * cd) by ring. rewrite H. ring.
Qed.

Lemma dot_comm a b : dot a b = dot b a.
Proof. unfold dot. ring. Qed.
Lemma dot_add3_l a b c x y z d : dot (add3 a b c x y z) d = x * dot a d + y * dot b d + z * dot c d.
Proof. unfold dot, add3, vx, vy, vz; cbn [fst snd]. ring. Qed.
Lemma dot_add3_r a b c x y z d : dot d (add3 a b c x y z) = x * dot d a + y * dot d b + z * dot d c.
Proof. unfold dot, add3, vx, vy, vz; cbn [fst snd]. ring. Qed.

(** Every vector is the sum of its components along the frame. *)
Lemma expand ra dec v : v = add3 (ahead ra dec) (east ra dec) (north ra dec) (dot v (ahead ra dec)) (dot v (east ra dec)) (dot v (north ra dec)).
Proof.
  destruct v as [[x y] z]. rewrite east_val, north_val. unfold ahead, skydir, add3, dot, vx, vy, vz; cbn [fst snd].
  pose proof (sincos (ra * PI / 180)) as H1. pose proof (sincos (dec * PI / 180)) as H2.
  set (ca := cos (ra * PI / 180)) in *. set (sa := sin (ra * PI / 180)) in *. set (cd := cos (dec * PI / 180)) in *. set (sd := sin (dec * PI / 180)) in *.
  assert (S1 : sa * sa = 1 - ca * ca) by lra. assert (S2 : sd * sd = 1 - cd * cd) by lra.
  f_equal; [f_equal|].
  - transitivity (x * (ca * ca * (cd * cd + sd * sd) + sa * sa) + y * (ca * sa * (cd * cd + sd * sd - 1))). { rewrite S1, S2. ring. } ring.
  - transitivity (y * (sa * sa * (cd * cd + sd * sd) + ca * ca) + x * (ca * sa * (cd * cd + sd * sd - 1))). { rewrite S1, S2. ring. } ring.
  - transitivity (z * (sd * sd + cd * cd)). { rewrite S2. ring. } ring.
Qed.

Lemma polar_add3 ra dec mu phi : polar ra dec mu phi = add3 (ahead ra dec) (east ra dec) (north ra dec) mu (sqrt (1 - mu * mu) * cos phi) (sqrt (1 - mu * mu) * sin phi).
Proof. reflexivity. Qed.

Lemma norm_add3 ra dec x y z : dot (add3 (ahead ra dec) (east ra dec) (north ra dec) x y z) (add3 (ahead ra dec) (east ra dec) (north ra dec) x y z) = x * x + y * y + z * z.
Proof.
  destruct (frame ra dec) as (A & B & C & D & E & F).
  rewrite dot_add3_l, !dot_add3_r, A, B, C, D, E, F, (dot_comm (east ra dec) (ahead ra dec)), (dot_comm (north ra dec) (ahead ra dec)), (dot_comm (north ra dec) (east ra dec)), D, E, F. ring.
Qed.

Lemma comps ra dec x y z : let v := add3 (ahead ra dec) (east ra dec) (north ra dec) x y z in
  dot v (ahead ra dec) = x /\ dot v (east ra dec) = y /\ dot v (north ra dec) = z.
Proof.
  intros v. destruct (frame ra dec) as (A & B & C & D & E & F). unfold v.
  rewrite !dot_add3_l, A, B, C, D, E, F, (dot_comm (east ra dec) (ahead ra dec)), (dot_comm (north ra dec) (ahead ra dec)), (dot_comm (north ra dec) (east ra dec)), D, E, F. repeat split; ring.
Qed.

Lemma sqrt_id x : 0 <= x -> sqrt x * sqrt x = x.
Proof. apply sqrt_sqrt. Qed.

Lemma unit_comps ra dec v : unit_vector v -> dot v (ahead ra dec) * dot v (ahead ra dec) + dot v (east ra dec) * dot v (east ra dec) + dot v (north ra dec) * dot v (north ra dec) = 1.
Proof. intros U. red in U. rewrite (expand ra dec v) in U. now rewrite norm_add3 in U. Qed.

Section Angles.
  Variable angles : vec -> R * R.
  Hypothesis good : angles_of_directions angles.

  Lemma rotate_forward ra dec v : unit_vector v ->
    do_rotation angles (rotation ra dec) v false = add3 (ahead ra dec) (east ra dec) (north ra dec) (vx v) (vy v) (vz v).
  Proof.
    intros U. pose proof (good v U) as G. unfold do_rotation. unfold skydir in G.
    set (w := (cos (snd (angles v) * PI / 180) * cos (fst (angles v) * PI / 180), _, _)) in *. rewrite G.
    rewrite east_val, north_val. unfold rotation, row0, row1, row2, ahead, skydir, add3, vx, vy, vz; cbn [fst snd].
    f_equal; [f_equal|]; ring.
  Qed.

  Lemma rotate_back ra dec v : unit_vector v ->
    do_rotation angles (rotation ra dec) v true = (dot v (ahead ra dec), dot v (east ra dec), dot v (north ra dec)).
  Proof.
    intros U. pose proof (good v U) as G. unfold do_rotation. unfold skydir in G.
    set (w := (cos (snd (angles v) * PI / 180) * cos (fst (angles v) * PI / 180), _, _)) in *. rewrite G.
    rewrite east_val, north_val. unfold rotation, row0, row1, row2, ahead, skydir, dot, vx, vy, vz; cbn [fst snd].
    f_equal; [f_equal|]; ring.
  Qed.

  Lemma source_direction ra dec mu phi : -1 <= mu <= 1 -> (mu <> 0 \/ cos phi <> 0) ->
    getSrcDir angles mu phi (rotation ra dec) = Ok (polar ra dec mu phi).
  Proof.
    intros Hm Hn. unfold getSrcDir. pose proof (sincos phi) as SC.
    set (sp := sin phi) in *. set (cp := cos phi) in *. set (q := 1 - (1 - mu * mu) * sp * sp).
    assert (M : 0 <= 1 - mu * mu) by nra.
    assert (Q : q = mu * mu + (1 - mu * mu) * (cp * cp)). { unfold q. replace (cp * cp) with (1 - sp * sp) by lra. ring. }
    assert (QP : 0 < q). { rewrite Q. destruct Hn as [Hn|Hn].
      - assert (0 < mu * mu) by nra. assert (0 <= (1 - mu * mu) * (cp * cp)) by (apply Rmult_le_pos; nra). lra.
      - assert (0 < cp * cp) by nra. assert (cp * cp <= 1) by nra. assert (0 <= mu * mu) by nra. nra. }
    destruct (Rltb_spec (1 - mu * mu) 0); [lra|]. destruct (Rltb_spec q 0); [lra|]. destruct (Reqb_spec q 0); [lra|].
    f_equal.
    set (s := sqrt (1 - mu * mu)). assert (S2 : s * s = 1 - mu * mu) by (apply sqrt_id; exact M).
    assert (S0 : 0 <= s) by apply sqrt_pos.
    assert (QS : sqrt q * sqrt q = q) by (apply sqrt_id; lra). assert (QS0 : 0 < sqrt q) by (apply sqrt_lt_R0; exact QP).
    assert (mle : mu * mu <= q). { rewrite Q. assert (0 <= (1 - mu * mu) * (cp * cp)) by (apply Rmult_le_pos; nra). lra. }
    assert (AR : -1 <= mu / sqrt q <= 1).
    { assert (K : Rabs mu <= sqrt q). { rewrite <- (sqrt_Rsqr_abs mu). apply sqrt_le_1_alt. exact mle. }
      assert (K1 := Rle_abs mu). assert (K2 := Rle_abs (- mu)). rewrite Rabs_Ropp in K2. split.
      - apply Rmult_le_reg_r with (sqrt q); [exact QS0|]. unfold Rdiv. rewrite Rmult_assoc, Rinv_l by lra. lra.
      - apply Rmult_le_reg_r with (sqrt q); [exact QS0|]. unfold Rdiv. rewrite Rmult_assoc, Rinv_l by lra. lra. }
    assert (MA : my_acos (mu / sqrt q) = acos (mu / sqrt q)).
    { unfold my_acos. destruct (Rltb_spec 1 (mu / sqrt q)); [lra|]. destruct (Rltb_spec (mu / sqrt q) (-1)); [lra|reflexivity]. }
    rewrite MA. set (a := acos (mu / sqrt q)).
    assert (SPR : -1 <= s * sp <= 1).
    { assert ((s * sp) * (s * sp) <= 1). { replace (s * sp * (s * sp)) with (s * s * (sp * sp)) by ring. rewrite S2. nra. } nra. }
    rewrite rotate_forward by apply skydir_unit. rewrite polar_add3. fold s cp sp.
    unfold skydir at 1 2 3, vx at 1, vy at 1, vz at 1; cbn [fst snd]. rewrite !PI180.
    rewrite sin_asin by lra. rewrite cos_asin by lra.
    replace (1 - Rsqr (s * sp)) with q by (unfold Rsqr, q; replace (s * sp * (s * sp)) with (s * s * (sp * sp)) by ring; rewrite S2; ring).
    assert (CA : cos a = mu / sqrt q) by (unfold a; apply cos_acos; exact AR).
    assert (SA : sqrt q * sin a = s * Rabs cp).
    { unfold a. rewrite sin_acos by exact AR. rewrite <- sqrt_mult_alt by lra.
      unfold s. rewrite <- (sqrt_Rsqr_abs cp), <- sqrt_mult_alt by exact M. f_equal. unfold Rsqr.
      replace (mu / sqrt q * (mu / sqrt q)) with (mu * mu / (sqrt q * sqrt q)) by (field; lra). rewrite QS.
      replace (q * (1 - mu * mu / q)) with (q - mu * mu) by (field; lra). rewrite Q. ring. }
    assert (C2 : cos (2 * PI - a) = cos a) by (rewrite cos_minus, cos_2PI, sin_2PI; ring).
    assert (S3 : sin (2 * PI - a) = - sin a) by (rewrite sin_minus, cos_2PI, sin_2PI; ring).
    f_equal.
    - destruct (Rltb_spec cp 0); rewrite ?C2, CA; field; lra.
    - destruct (Rltb_spec cp 0).
      + rewrite S3. replace (sqrt q * - sin a) with (- (sqrt q * sin a)) by ring. rewrite SA, Rabs_left by lra. ring.
      + rewrite SA, Rabs_right by lra. ring.
  Qed.

  Lemma source_direction_undefined ra dec phi : cos phi = 0 -> getSrcDir angles 0 phi (rotation ra dec) = UB.
  Proof.
    intros C. unfold getSrcDir. pose proof (sincos phi) as SC. rewrite C in SC.
    destruct (Rltb_spec (1 - 0 * 0) 0); [lra|]. destruct (Rltb_spec (1 - (1 - 0 * 0) * sin phi * sin phi) 0); [reflexivity|].
    destruct (Reqb_spec (1 - (1 - 0 * 0) * sin phi * sin phi) 0); [reflexivity|]. exfalso. apply n0. nra.
  Qed.

  Lemma difference_same a : difference a a = 0.
  Proof.
    unfold difference. replace ((vx a - vx a) * (vx a - vx a) + (vy a - vy a) * (vy a - vy a) + (vz a - vz a) * (vz a - vz a)) with 0 by ring.
    rewrite sqrt_0. replace (0 / 2) with 0 by field. rewrite asin_0. ring.
  Qed.
  Lemma difference_comm a b : difference a b = difference b a.
  Proof. unfold difference. do 4 f_equal; ring. Qed.

  (** phiValue gives an angle of the source's direction. *)
  Lemma phi_value ra dec v : unit_vector v -> let mu := dot v (ahead ra dec) in mu * mu <> 1 -> (mu <> 0 \/ dot v (east ra dec) <> 0) ->
    exists p, phiValue angles mu v (rotation ra dec) = Ok p /\ - PI <= p <= PI /\ difference (polar ra dec mu p) v < 1 / 100000000 /\ (mu <> 0 \/ cos p <> 0) /\
      (polar ra dec mu p = v \/ 0 <= p /\ polar ra dec mu (- p) = v).
  Proof.
    intros U mu N1 N0. pose proof (unit_comps ra dec v U) as UC. fold mu in UC.
    set (y := dot v (east ra dec)) in *. set (z := dot v (north ra dec)) in *.
    assert (M : -1 <= mu <= 1) by nra. assert (M1 : 0 < 1 - mu * mu) by nra.
    set (s := sqrt (1 - mu * mu)). assert (S2 : s * s = 1 - mu * mu) by (apply sqrt_id; lra).
    assert (S0 : 0 < s) by (apply sqrt_lt_R0; exact M1).
    assert (YR : -1 <= y / s <= 1).
    { assert (y * y <= s * s) by (rewrite S2; nra). split; apply Rmult_le_reg_r with s; try exact S0; unfold Rdiv; rewrite Rmult_assoc, Rinv_l by lra; nra. }
    unfold phiValue. rewrite (source_direction ra dec mu 0 M) by (right; rewrite cos_0; lra). cbn [obind].
    destruct (Reqb_spec (1 - mu * mu) 0); [lra|].
    assert (CP : dot (polar ra dec mu 0) v = mu * mu + s * y).
    { rewrite polar_add3, dot_add3_l, cos_0, sin_0. fold s. rewrite (dot_comm _ v), (dot_comm (east ra dec) v), (dot_comm (north ra dec) v). fold mu y z. ring. }
    rewrite CP. replace ((mu * mu + s * y - mu * mu) / (1 - mu * mu)) with (y / s) by (rewrite <- S2; field; lra).
    assert (P0 : (if Rleb (y / s) (- 1) then PI else if Rleb 1 (y / s) then 0 else acos (y / s)) = acos (y / s)).
    { destruct (Rleb_spec (y / s) (- 1)). { replace (y / s) with (- (1)) by lra. rewrite acos_opp, acos_1. lra. }
      destruct (Rleb_spec 1 (y / s)); [|reflexivity]. replace (y / s) with 1 by lra. now rewrite acos_1. }
    rewrite P0. set (p := acos (y / s)). assert (PB : 0 <= p <= PI) by apply acos_bound.
    assert (CC : s * cos p = y) by (unfold p; rewrite cos_acos by exact YR; field; lra).
    assert (SS : s * sin p = Rabs z).
    { unfold p. rewrite sin_acos by exact YR. unfold s at 1. rewrite <- sqrt_mult_alt by lra. rewrite <- (sqrt_Rsqr_abs z). f_equal. unfold Rsqr.
      replace (y / s * (y / s)) with (y * y / (s * s)) by (field; lra). rewrite S2. replace ((1 - mu * mu) * (1 - y * y / (1 - mu * mu))) with (1 - mu * mu - y * y) by (field; lra). nra. }
    assert (D0 : mu <> 0 \/ cos p <> 0). { destruct N0 as [N0|N0]; [now left|right]. intros K. rewrite K in CC. apply N0. lra. }
    assert (D1 : mu <> 0 \/ cos (- p) <> 0) by (rewrite cos_neg; exact D0).
    rewrite (source_direction ra dec mu p M D0), (source_direction ra dec mu (- p) M D1). cbn [obind].
    assert (V0 : 0 <= z -> polar ra dec mu p = v). { intros Z. rewrite polar_add3. fold s. rewrite CC, SS, Rabs_right by lra. symmetry. exact (expand ra dec v). }
    assert (V1 : z < 0 -> polar ra dec mu (- p) = v).
    { intros Z. rewrite polar_add3, cos_neg, sin_neg. fold s. rewrite CC. replace (s * - sin p) with (- (s * sin p)) by ring. rewrite SS, Rabs_left by lra.
      replace (- - z) with z by ring. symmetry. exact (expand ra dec v). }
    destruct (Rltb_spec (difference v (polar ra dec mu p)) (1 / 100000000)) as [L|L].
    - exists p. split; [reflexivity|]. split; [lra|]. split; [rewrite difference_comm; exact L|]. split; [exact D0|].
      destruct (Rle_or_lt 0 z) as [Z|Z]; [left; auto|right; split; [lra|auto]].
    - exists (- p). split; [reflexivity|]. split; [lra|].
      destruct (Rle_or_lt 0 z) as [Z|Z]. { rewrite (V0 Z), difference_same in L. lra. }
      split; [rewrite (V1 Z), difference_same; lra|]. split; [exact D1|]. left. auto.
  Qed.
End Angles.

(** Angles are unique. *)
Lemma polar_inj ra dec mu p p' : -1 < mu < 1 -> polar ra dec mu p = polar ra dec mu p' -> cos p = cos p' /\ sin p = sin p'.
Proof.
  intros M E. rewrite !polar_add3 in E.
  pose proof (comps ra dec mu (sqrt (1 - mu * mu) * cos p) (sqrt (1 - mu * mu) * sin p)) as (_ & A & B).
  pose proof (comps ra dec mu (sqrt (1 - mu * mu) * cos p') (sqrt (1 - mu * mu) * sin p')) as (_ & A' & B').
  rewrite E, A' in A. rewrite E, B' in B. assert (0 < sqrt (1 - mu * mu)) by (apply sqrt_lt_R0; nra). split; nra.
Qed.

Lemma same_angle p p' : - PI < p <= PI -> - PI < p' <= PI -> cos p = cos p' -> sin p = sin p' -> p = p'.
Proof.
  intros B B' C S. pose proof PI_RGT_0 as PP.
  assert (K : forall a, - PI < a <= PI -> 0 <= a \/ a < 0) by (intros; lra).
  destruct (Rle_or_lt 0 p) as [A|A], (Rle_or_lt 0 p') as [A'|A'].
  - apply cos_inj; lra.
  - exfalso. assert (sin p' < 0). { replace p' with (- (- p')) by ring. rewrite sin_neg. assert (0 < sin (- p')) by (apply sin_gt_0; lra). lra. }
    assert (0 <= sin p) by (apply sin_ge_0; lra). lra.
  - exfalso. assert (sin p < 0). { replace p with (- (- p)) by ring. rewrite sin_neg. assert (0 < sin (- p)) by (apply sin_gt_0; lra). lra. }
    assert (0 <= sin p') by (apply sin_ge_0; lra). lra.
  - assert (- p = - p'); [|lra]. apply cos_inj; try lra. rewrite !cos_neg. exact C.
Qed.

(** C71: directions, limits and sums of the diffuse response of an event. *)
From Verif Require Import Base AccumModel AccumProofs DrgModel DrgSpec DrgProofs.
From Coq Require Import Reals Lra Lia List Psatz.
Import ListNotations.
Local Open Scope R_scope.

Section WithAngles.
  (** Any reading of right ascension and declination off a direction. *)
  Variable angles : vec -> R * R.
  Hypothesis good : angles_of_directions angles.

  (** The rotation takes the x, y and z axes to the direction given and to its east and north; it keeps
      angles, and the reverse rotation undoes it. *)
  Theorem C71_rotation : forall ra dec,
    do_rotation angles (rotation ra dec) (1, 0, 0) false = skydir ra dec /\
    do_rotation angles (rotation ra dec) (0, 1, 0) false = skydir (ra + 90) 0 /\
    do_rotation angles (rotation ra dec) (0, 0, 1) false = skydir ra (dec + 90) /\
    (forall v w b, unit_vector v -> unit_vector w -> dot (do_rotation angles (rotation ra dec) v b) (do_rotation angles (rotation ra dec) w b) = dot v w) /\
    (forall v b, unit_vector v -> do_rotation angles (rotation ra dec) (do_rotation angles (rotation ra dec) v b) (negb b) = v).
  Proof.
    intros ra dec. assert (U : forall x y z, x * x + y * y + z * z = 1 -> unit_vector (x, y, z)) by (intros; exact H).
    assert (DR : forall v w, unit_vector v -> unit_vector w -> dot (add3 (ahead ra dec) (east ra dec) (north ra dec) (vx v) (vy v) (vz v)) (add3 (ahead ra dec) (east ra dec) (north ra dec) (vx w) (vy w) (vz w)) = dot v w).
    { intros v w _ _. rewrite dot_add3_r. destruct (comps ra dec (vx v) (vy v) (vz v)) as (A & B & C). rewrite A, B, C. unfold dot. ring. }
    assert (UF : forall v, unit_vector v -> unit_vector (add3 (ahead ra dec) (east ra dec) (north ra dec) (vx v) (vy v) (vz v))) by (intros v V; red; now rewrite DR).
    split; [|split; [|split; [|split]]].
    - rewrite (rotate_forward angles good) by (apply U; lra). fold (ahead ra dec). unfold add3, vx, vy, vz; cbn [fst snd].
      destruct (ahead ra dec) as [[a b] c]. cbn [fst snd]. f_equal; [f_equal|]; ring.
    - rewrite (rotate_forward angles good) by (apply U; lra). fold (east ra dec). unfold add3, vx, vy, vz; cbn [fst snd].
      destruct (east ra dec) as [[a b] c]. cbn [fst snd]. f_equal; [f_equal|]; ring.
    - rewrite (rotate_forward angles good) by (apply U; lra). fold (north ra dec). unfold add3, vx, vy, vz; cbn [fst snd].
      destruct (north ra dec) as [[a b] c]. cbn [fst snd]. f_equal; [f_equal|]; ring.
    - intros v w [] V W.
      + rewrite !(rotate_back angles good) by assumption. rewrite (expand ra dec v) at 4. rewrite dot_add3_l.
        rewrite (dot_comm _ w), (dot_comm (east ra dec) w), (dot_comm (north ra dec) w). reflexivity.
      + rewrite !(rotate_forward angles good) by assumption. now apply DR.
    - intros v [] V; cbn [negb].
      + rewrite (rotate_back angles good) by assumption. rewrite (rotate_forward angles good).
        * symmetry. exact (expand ra dec v).
        * apply U. now apply unit_comps.
      + rewrite (rotate_forward angles good) by assumption. rewrite (rotate_back angles good) by (now apply UF).
        destruct (comps ra dec (vx v) (vy v) (vz v)) as (A & B & C). rewrite A, B, C. now destruct v as [[x y] z].
  Qed.

  (** The integration variables are polar coordinates about the direction: mu is the cosine of the angle
      from it, phi the position angle from east through north. *)
  Theorem C71_direction : forall ra dec mu phi, -1 <= mu <= 1 -> mu <> 0 \/ cos phi <> 0 ->
    exists d, getSrcDir angles mu phi (rotation ra dec) = Ok d /\ d = polar ra dec mu phi /\
      unit_vector d /\ dot d (skydir ra dec) = mu.
  Proof.
    intros ra dec mu phi M N. exists (polar ra dec mu phi). split; [now apply source_direction|]. split; [reflexivity|].
    rewrite polar_add3. split.
    - red. rewrite norm_add3. assert (S2 : sqrt (1 - mu * mu) * sqrt (1 - mu * mu) = 1 - mu * mu) by (apply sqrt_sqrt; nra). pose proof (sincos phi).
      replace (mu * mu + sqrt (1 - mu * mu) * cos phi * (sqrt (1 - mu * mu) * cos phi) + sqrt (1 - mu * mu) * sin phi * (sqrt (1 - mu * mu) * sin phi)) with
        (mu * mu + sqrt (1 - mu * mu) * sqrt (1 - mu * mu) * (sin phi * sin phi + cos phi * cos phi)) by ring. rewrite H, S2. ring.
    - apply (comps ra dec mu _ _).
  Qed.

  (** Each direction of the sky, apart from the two poles of the coordinates, is met at exactly one pair of
      mu and phi: the integral covers the sky once. *)
  Theorem C71_covers_once : forall ra dec v, unit_vector v -> dot v (skydir ra dec) * dot v (skydir ra dec) <> 1 ->
    dot v (skydir ra dec) <> 0 \/ dot v (skydir (ra + 90) 0) <> 0 ->
    exists phi, - PI < phi <= PI /\ getSrcDir angles (dot v (skydir ra dec)) phi (rotation ra dec) = Ok v /\
      forall mu' phi', -1 <= mu' <= 1 -> - PI < phi' <= PI -> getSrcDir angles mu' phi' (rotation ra dec) = Ok v -> mu' = dot v (skydir ra dec) /\ phi' = phi.
  Proof.
    intros ra dec v U N1 N0. fold (ahead ra dec) in *. fold (east ra dec) in *. pose proof PI_RGT_0 as PP.
    set (mu := dot v (ahead ra dec)) in *.
    assert (M : -1 < mu < 1). { pose proof (unit_comps ra dec v U) as UC. fold mu in UC. assert (-1 <= mu <= 1) by nra. split; [destruct (Req_dec mu (-1))|destruct (Req_dec mu 1)]; try lra; exfalso; apply N1; nra. }
    destruct (phi_value angles good ra dec v U N1 N0) as (p & _ & B & _ & D & E). fold mu in D, E.
    assert (X : exists phi, - PI < phi <= PI /\ polar ra dec mu phi = v).
    { assert (Y : exists p, - PI <= p <= PI /\ polar ra dec mu p = v). { destruct E as [E|[E0 E]]; [exists p; split; [lra|exact E]|exists (- p); split; [lra|exact E]]. }
      destruct Y as (r & Br & Er). destruct (Req_dec r (- PI)) as [->|]; [|exists r; split; [lra|exact Er]].
      exists PI. split; [lra|]. rewrite <- Er, !polar_add3, cos_neg, sin_neg, sin_PI. now rewrite Ropp_0. }
    destruct X as (phi & Bp & Ep).
    assert (Q : forall f, polar ra dec mu f = v -> mu <> 0 \/ cos f <> 0).
    { intros f F. destruct N0 as [N0|N0]; [now left|right]. intros K. apply N0. rewrite <- F, polar_add3. rewrite (proj1 (proj2 (comps ra dec mu _ _))), K. ring. }
    exists phi. split; [exact Bp|]. split; [rewrite (source_direction angles good) by (try lra; now apply Q); now rewrite Ep|].
    intros mu' phi' M' B' G.
    assert (N' : mu' <> 0 \/ cos phi' <> 0).
    { destruct (Req_dec mu' 0) as [->|]; [|now left]. right. intros K. now rewrite (source_direction_undefined angles ra dec phi' K) in G. }
    rewrite (source_direction angles good ra dec mu' phi' M' N') in G. injection G as G.
    assert (EM : mu' = mu). { unfold mu. rewrite <- G, polar_add3. symmetry. apply (comps ra dec mu' _ _). }
    split; [exact EM|]. subst mu'. rewrite <- Ep in G. destruct (polar_inj ra dec mu phi' phi M G) as [C S]. now apply same_angle.
  Qed.

  (** At 90 degrees due north or south the direction is not a number. *)
  Theorem C71_pole_refuted : forall ra dec, unit_vector (skydir ra (dec + 90)) /\ polar ra dec 0 (PI / 2) = skydir ra (dec + 90) /\
    getSrcDir angles 0 (PI / 2) (rotation ra dec) = UB.
  Proof.
    intros. split; [apply skydir_unit|]. split; [|apply source_direction_undefined; apply cos_PI2].
    rewrite polar_add3, cos_PI2, sin_PI2. fold (north ra dec). replace (1 - 0 * 0) with 1 by ring. rewrite sqrt_1.
    unfold add3, vx, vy, vz. destruct (north ra dec) as [[a b] c]. cbn [fst snd]. f_equal; [f_equal|]; ring.
  Qed.

  (** phiValue recovers the position angle of a direction: the direction with that angle is the one given, to
      within 1e-8. *)
  Theorem C71_phi_partial : forall ra dec v, unit_vector v -> dot v (skydir ra dec) * dot v (skydir ra dec) <> 1 ->
    dot v (skydir ra dec) <> 0 \/ dot v (skydir (ra + 90) 0) <> 0 ->
    exists p d, phiValue angles (dot v (skydir ra dec)) v (rotation ra dec) = Ok p /\ - PI <= p <= PI /\
      getSrcDir angles (dot v (skydir ra dec)) p (rotation ra dec) = Ok d /\ difference d v < 1 / 100000000.
  Proof.
    intros ra dec v U N1 N0. destruct (phi_value angles good ra dec v U N1 N0) as (p & A & B & C & D & _).
    exists p, (polar ra dec (dot v (ahead ra dec)) p). split; [exact A|]. split; [exact B|]. split; [|exact C].
    apply (source_direction angles good); [|exact D]. pose proof (unit_comps ra dec v U). nra.
  Qed.
  (** Missing: a direction opposite to the event's (or at one of the poles of the coordinates) has no angle
      that is a number. *)
  Theorem C71_phi_refuted : forall ra dec v, unit_vector v -> dot v (skydir ra dec) = -1 ->
    phiValue angles (dot v (skydir ra dec)) v (rotation ra dec) = UB.
  Proof.
    intros ra dec v U E. rewrite E. unfold phiValue. rewrite (source_direction angles good) by (rewrite ?cos_0; lra). cbn [obind].
    destruct (Reqb_spec (1 - -1 * -1) 0); [reflexivity|lra].
  Qed.

  (** Limits of an event inside the map: all position angles, from the event's direction to the farthest
      pixel of the map's border. *)
  Theorem C71_limits_inside : forall dir closest farthest corners,
    getDiffRespLimits angles dir true closest farthest corners = Ok (mkLimits (dot farthest dir) 1 0 (2 * PI)).
  Proof. reflexivity. Qed.

  (** Folding the smallest and largest angle. *)
  Lemma extremes dir m : forall rest r, (forall c, In c rest -> exists p, phiValue angles (dot c dir) c m = Ok p) -> fst r <= snd r ->
    exists r', mfold (fun (r : R * R) c => obind (phiValue angles (dot c dir) c m) (fun phitest =>
                        Ok (if Rltb phitest (fst r) then phitest else fst r,
                            if Rltb (snd r) phitest then phitest else snd r))) rest r = Ok r' /\ fst r' <= snd r' /\
      (fst r' <= fst r /\ snd r <= snd r') /\ (forall c p, In c rest -> phiValue angles (dot c dir) c m = Ok p -> fst r' <= p <= snd r') /\
      (fst r' = fst r \/ exists c, In c rest /\ phiValue angles (dot c dir) c m = Ok (fst r')) /\
      (snd r' = snd r \/ exists c, In c rest /\ phiValue angles (dot c dir) c m = Ok (snd r')).
  Proof.
    induction rest as [|c rest IH]; intros r H L.
    - exists r. cbn [mfold]. repeat split; try lra; try (now left); intros ? ? [].
    - destruct (H c (or_introl eq_refl)) as (p & E). cbn [mfold]. rewrite E. cbn [obind].
      set (r1 := (if Rltb p (fst r) then p else fst r, if Rltb (snd r) p then p else snd r)).
      assert (B : fst r1 <= fst r /\ snd r <= snd r1 /\ fst r1 <= p <= snd r1 /\ (fst r1 = fst r \/ fst r1 = p) /\ (snd r1 = snd r \/ snd r1 = p)).
      { unfold r1. cbn [fst snd]. destruct (Rltb_spec p (fst r)), (Rltb_spec (snd r) p); repeat split; try lra; auto. }
      destruct B as (B1 & B2 & B3 & B4 & B5).
      destruct (IH r1) as (r' & E' & L' & (C1 & C2) & D & F & G); [intros; apply H; now right|lra|].
      exists r'. split; [exact E'|]. split; [exact L'|]. split; [lra|]. split; [|split].
      + intros c' p' [<-|I] E2; [|now apply (D c' p')]. assert (p' = p) by congruence. subst. lra.
      + destruct F as [F|(c' & I & F)]; [|right; exists c'; split; [now right|exact F]]. destruct B4 as [B4|B4]; [left; congruence|].
        right. exists c. split; [now left|]. rewrite F, B4. exact E.
      + destruct G as [G|(c' & I & G)]; [|right; exists c'; split; [now right|exact G]]. destruct B5 as [B5|B5]; [left; congruence|].
        right. exists c. split; [now left|]. rewrite G, B5. exact E.
  Qed.

  (** The angles of corners, for corners that have them. *)
  Definition has_angles (dir : vec) (corners : list vec) : Prop :=
    unit_vector dir /\ corners <> [] /\
    forall c, In c corners -> unit_vector c /\ dot c dir * dot c dir <> 1 /\ dot c dir <> 0.

  Lemma limits_value dir closest farthest corners : has_angles dir corners ->
    exists lo hi, (forall c, In c corners -> exists p, phiValue angles (dot c dir) c (rotation (fst (angles dir)) (snd (angles dir))) = Ok p /\ - PI <= p <= PI /\ lo <= p <= hi) /\
      - PI <= lo <= hi /\ hi <= PI /\
      (exists c, In c corners /\ phiValue angles (dot c dir) c (rotation (fst (angles dir)) (snd (angles dir))) = Ok lo) /\
      (exists c, In c corners /\ phiValue angles (dot c dir) c (rotation (fst (angles dir)) (snd (angles dir))) = Ok hi) /\
      getDiffRespLimits angles dir false closest farthest corners =
        Ok (if Rltb PI (hi - lo) then mkLimits (dot farthest dir) (dot closest dir) hi (2 * PI + lo)
            else mkLimits (dot farthest dir) (dot closest dir) lo hi).
  Proof.
    intros (U & NE & H). set (ra := fst (angles dir)). set (dec := snd (angles dir)).
    assert (A : skydir ra dec = dir) by (now apply good).
    assert (K : forall c, In c corners -> exists p, phiValue angles (dot c dir) c (rotation ra dec) = Ok p /\ - PI <= p <= PI).
    { intros c I. destruct (H c I) as (Uc & N1 & N0). destruct (phi_value angles good ra dec c Uc) as (p & E & B & _).
      - unfold ahead. now rewrite A.
      - left. unfold ahead. now rewrite A.
      - exists p. split; [|exact B]. unfold ahead in E. now rewrite A in E. }
    destruct corners as [|c rest]; [congruence|]. destruct (K c (or_introl eq_refl)) as (p & E & B).
    destruct (extremes dir (rotation ra dec) rest (p, p)) as ((lo & hi) & E' & L' & (C1 & C2) & D & F & G).
    { intros c' I. destruct (K c' (or_intror I)) as (p' & E2 & _). eauto. } { cbn; lra. }
    cbn [fst snd] in *. exists lo, hi.
    assert (Q : forall c', In c' (c :: rest) -> exists p', phiValue angles (dot c' dir) c' (rotation ra dec) = Ok p' /\ - PI <= p' <= PI /\ lo <= p' <= hi).
    { intros c' [<-|I]; [exists p; repeat split; try exact E; lra|]. destruct (K c' (or_intror I)) as (p' & E2 & B2). exists p'. split; [exact E2|]. split; [exact B2|]. exact (D c' p' I E2). }
    assert (LO : exists c', In c' (c :: rest) /\ phiValue angles (dot c' dir) c' (rotation ra dec) = Ok lo).
    { destruct F as [->|(c' & I & F)]; [exists c; split; [now left|exact E]|exists c'; split; [now right|exact F]]. }
    assert (HI : exists c', In c' (c :: rest) /\ phiValue angles (dot c' dir) c' (rotation ra dec) = Ok hi).
    { destruct G as [->|(c' & I & G)]; [exists c; split; [now left|exact E]|exists c'; split; [now right|exact G]]. }
    assert (BL : - PI <= lo). { destruct LO as (c' & I & X). destruct (K c' I) as (p' & E2 & B2). assert (p' = lo) by congruence. lra. }
    assert (BH : hi <= PI). { destruct HI as (c' & I & X). destruct (K c' I) as (p' & E2 & B2). assert (p' = hi) by congruence. lra. }
    split; [exact Q|]. split; [lra|]. split; [exact BH|]. split; [exact LO|]. split; [exact HI|].
    unfold getDiffRespLimits. fold ra dec. rewrite E. cbn [obind]. rewrite E'. cbn [obind fst snd].
    destruct (Rltb_spec PI (hi - lo)); [|reflexivity]. destruct (Rltb_spec lo 0); [reflexivity|]. lra.
  Qed.

  (** Limits of an event outside the map: from the closest to the farthest pixel of the border; the range of
      position angles holds those of all corners when they differ by 180 degrees at most. *)
  Theorem C71_limits_partial : forall dir closest farthest corners, has_angles dir corners ->
    exists l, getDiffRespLimits angles dir false closest farthest corners = Ok l /\
      mumin l = dot farthest dir /\ mumax l = dot closest dir /\
      ((forall c c' p p', In c corners -> In c' corners ->
          phiValue angles (dot c dir) c (rotation (fst (angles dir)) (snd (angles dir))) = Ok p ->
          phiValue angles (dot c' dir) c' (rotation (fst (angles dir)) (snd (angles dir))) = Ok p' -> p' - p <= PI) ->
        forall c, In c corners -> exists p, phiValue angles (dot c dir) c (rotation (fst (angles dir)) (snd (angles dir))) = Ok p /\ phimin l <= p <= phimax l).
  Proof.
    intros dir closest farthest corners H. destruct (limits_value dir closest farthest corners H) as (lo & hi & Q & BL & BH & (cl & Il & El) & (ch & Ih & Eh) & E).
    eexists. split; [exact E|]. destruct (Rltb_spec PI (hi - lo)) as [L|L]; cbn [mumin mumax phimin phimax]; (split; [reflexivity|split; [reflexivity|]]); intros S c I.
    - specialize (S cl ch lo hi Il Ih El Eh). lra.
    - destruct (Q c I) as (p & Ep & _ & B). exists p. split; [exact Ep|exact B].
  Qed.

  (** Missing: corners on both sides of the angle of 180 degrees.  The range then runs from the largest to
      the smallest angle, so that every corner with an angle in between is left out. *)
  Theorem C71_limits_refuted : forall dir closest farthest corners l, has_angles dir corners ->
    getDiffRespLimits angles dir false closest farthest corners = Ok l ->
    forall c1 c2 c3 p1 p2 p3, In c1 corners -> In c2 corners -> In c3 corners ->
      phiValue angles (dot c1 dir) c1 (rotation (fst (angles dir)) (snd (angles dir))) = Ok p1 ->
      phiValue angles (dot c2 dir) c2 (rotation (fst (angles dir)) (snd (angles dir))) = Ok p2 ->
      phiValue angles (dot c3 dir) c3 (rotation (fst (angles dir)) (snd (angles dir))) = Ok p3 ->
      p1 < p2 < p3 -> PI < p3 - p1 -> ~ in_range (phimin l) (phimax l) p2.
  Proof.
    intros dir closest farthest corners l H E c1 c2 c3 p1 p2 p3 I1 I2 I3 E1 E2 E3 O S.
    destruct (limits_value dir closest farthest corners H) as (lo & hi & Q & BL & BH & _ & _ & E').
    destruct (Q c1 I1) as (q1 & F1 & _ & B1). destruct (Q c3 I3) as (q3 & F3 & _ & B3). assert (q1 = p1) by congruence. assert (q3 = p3) by congruence. subst q1 q3.
    rewrite E' in E. injection E as <-. destruct (Rltb_spec PI (hi - lo)) as [L|L]; [|lra]. cbn [phimin phimax].
    intros (k & K1 & K2).
    assert (lo < p2 < hi) by lra. destruct (Z_lt_le_dec k 1) as [Hk|Hk].
    - assert (IZR k <= 0) by (apply IZR_le; lia). pose proof PI_RGT_0. nra.
    - assert (1 <= IZR k) by (apply IZR_le; lia). pose proof PI_RGT_0. nra.
  Qed.

  (** The integrand is the response to the direction times the source's distribution there, and nothing
      more than 90 degrees off the axis of the spacecraft. *)
  Theorem C71_integrand : forall resp dist sc ra dec mu phi, -1 <= mu <= 1 -> mu <> 0 \/ cos phi <> 0 ->
    integrand angles resp dist sc (rotation ra dec) mu phi =
    Ok (if Rltb 90 (difference sc (polar ra dec mu phi) * 180 / PI) then 0 else resp (polar ra dec mu phi) * dist (polar ra dec mu phi)).
  Proof.
    intros. unfold integrand. rewrite (source_direction angles good) by assumption. cbn [obind]. destruct (Rltb _ _); reflexivity.
  Qed.
End WithAngles.

(** However the range is split, the integral is the one from the lower limit (no farther than the tails of
    the point spread function) to the upper limit of the map. *)
Theorem C71_split : forall I psf2s theta lo hi, (forall a b c, I a b + I b c = I a c) ->
  gq_response I psf2s theta lo hi = I (Rmax lo (cos (Rmin 180 (Rmax (4 * psf2s) (theta - 72.5)) * PI / 180))) hi.
Proof.
  intros I psf2s theta lo hi H. unfold gq_response. replace (725 / 10) with 72.5 by lra. destruct (Rltb _ _); [reflexivity|]. rewrite Rplus_comm. apply H.
Qed.

(** The range of pixels for the sum over the map: at least 5 degrees, never more at a higher energy. *)
Theorem C71_range : forall e e', 0 < e <= e' -> 5 * PI / 180 <= psfRange e' <= psfRange e.
Proof.
  intros e e' [P L]. assert (PP : 0 < 5 * PI / 180) by (pose proof PI_RGT_0; lra). unfold psfRange.
  assert (G : forall x, 0 < x <= 10000 -> 1 <= Rpower (x / 10000) (- (8 / 10))).
  { intros x [X0 X1]. rewrite Rpower_Ropp. unfold Rpower. assert (ln (x / 10000) <= 0). { rewrite <- ln_1. destruct (Req_dec x 10000) as [->|]; [right; f_equal; field|left; apply ln_increasing; lra]. }
    assert (exp (8 / 10 * ln (x / 10000)) <= 1). { rewrite <- exp_0. destruct (Req_dec (8 / 10 * ln (x / 10000)) 0) as [->|]; [lra|left; apply exp_increasing; lra]. }
    pose proof (exp_pos (8 / 10 * ln (x / 10000))). rewrite <- Rinv_1 at 1. apply Rinv_le_contravar; lra. }
  destruct (Rltb_spec 10000 e') as [A|A], (Rltb_spec 10000 e) as [B|B]; try lra.
  - split; [lra|]. specialize (G e ltac:(lra)). nra.
  - pose proof (G e' ltac:(lra)) as G1. split; [nra|]. apply Rmult_le_compat_l; [lra|]. rewrite !Rpower_Ropp. apply Rinv_le_contravar; [apply exp_pos|].
    unfold Rpower. assert (ln (e / 10000) <= ln (e' / 10000)). { destruct (Req_dec e e') as [->|]; [lra|left; apply ln_increasing; lra]. }
    destruct (Req_dec (ln (e / 10000)) (ln (e' / 10000))) as [->|]; [lra|left; apply exp_increasing; lra].
Qed.

(** The response summed over the map: every pixel in range, with its own direction and solid angle. *)
Theorem C71_map_sum : forall skyDir resp dist d energy solid,
  diffuseResponse_wcs skyDir resp dist d energy solid =
  Ok (fold_right Rplus 0 (concat (map (fun i => map (fun j =>
        if Rltb (difference d (skyDir (S i) (S j))) (psfRange energy)
        then resp (skyDir (S i) (S j)) * dist (skyDir (S i) (S j)) * nth j (nth i solid []) 0 else 0)
      (seq 0 (length (nth i solid [])))) (seq 0 (length solid))))).
Proof.
  intros skyDir resp dist d energy solid. unfold diffuseResponse_wcs.
  set (term := fun i j => if Rltb (difference d (skyDir (i + 1)%nat (j + 1)%nat)) (psfRange energy)
        then resp (skyDir (i + 1)%nat (j + 1)%nat) * dist (skyDir (i + 1)%nat (j + 1)%nat) * nth j (nth i solid []) 0 else 0).
  assert (IN : forall i col, nth_error solid i = Some col -> forall l acc, (forall j, In j l -> (j < length col)%nat) ->
    mfold (fun my_value j => if Rltb (difference d (skyDir (i + 1)%nat (j + 1)%nat)) (psfRange energy) then
        obind (vec_at solid i) (fun col => obind (vec_at col j) (fun omega => Ok (my_value + resp (skyDir (i + 1)%nat (j + 1)%nat) * dist (skyDir (i + 1)%nat (j + 1)%nat) * omega)))
      else Ok my_value) l acc = Ok (acc + Rsum (map (term i) l))).
  { intros i col Ei. induction l as [|j l IH]; intros acc Hl. { cbn [mfold map]. unfold Rsum. cbn. f_equal. ring. }
    cbn [mfold map]. assert (Lj : (j < length col)%nat) by (apply Hl; now left).
    assert (Ej : nth_error col j = Some (nth j col 0)) by (now apply nth_error_nth').
    assert (NT : nth i solid [] = col) by (now apply nth_error_nth).
    unfold term at 1. rewrite NT.
    destruct (Rltb (difference d (skyDir (i + 1)%nat (j + 1)%nat)) (psfRange energy)); cbn [obind].
    - unfold vec_at at 1. rewrite Ei. cbn [obind]. unfold vec_at at 1. rewrite Ej. cbn [obind]. rewrite IH by (intros; apply Hl; now right). unfold Rsum. cbn [fold_right]. f_equal. ring.
    - rewrite IH by (intros; apply Hl; now right). unfold Rsum. cbn [fold_right]. f_equal. ring. }
  assert (OUT : forall l acc, (forall i, In i l -> (i < length solid)%nat) ->
    mfold (fun my_value i => obind (vec_at solid i) (fun col =>
      mfold (fun my_value j => if Rltb (difference d (skyDir (i + 1)%nat (j + 1)%nat)) (psfRange energy) then
        obind (vec_at solid i) (fun col => obind (vec_at col j) (fun omega => Ok (my_value + resp (skyDir (i + 1)%nat (j + 1)%nat) * dist (skyDir (i + 1)%nat (j + 1)%nat) * omega)))
      else Ok my_value) (seq 0 (length col)) my_value)) l acc = Ok (acc + Rsum (concat (map (fun i => map (term i) (seq 0 (length (nth i solid [])))) l)))).
  { induction l as [|i l IH]; intros acc Hl. { cbn [mfold map concat]. unfold Rsum. cbn. f_equal. ring. }
    cbn [mfold map concat]. assert (Li : (i < length solid)%nat) by (apply Hl; now left).
    assert (Ei : nth_error solid i = Some (nth i solid [])) by (now apply nth_error_nth').
    unfold vec_at at 1. rewrite Ei. cbn [obind]. rewrite (IN i _ Ei) by (intros j; rewrite in_seq; lia). cbn [obind].
    rewrite IH by (intros; apply Hl; now right). rewrite Rsum_app. f_equal. ring. }
  rewrite OUT by (intros i; rewrite in_seq; lia). f_equal. rewrite Rplus_0_l. unfold Rsum. f_equal. f_equal. apply map_ext. intros i. apply map_ext. intros j. unfold term. now rewrite !Nat.add_1_r.
Qed.

(** Concrete directions: the reading of angles exists (the case below uses one direction only), and corners on
    both sides of the south-to-north line behind an event. *)
Example C71_case : unit_vector (3 / 5, 4 / 5, 0) /\ dot (3 / 5, 4 / 5, 0) (skydir 0 0) = 3 / 5 /\ polar 0 0 (3 / 5) 0 = (3 / 5, 4 / 5, 0).
Proof.
  assert (S : skydir 0 0 = (1, 0, 0)). { unfold skydir. replace (0 * PI / 180) with 0 by field. rewrite cos_0, sin_0. repeat (f_equal; try ring). }
  split; [unfold unit_vector, dot, vx, vy, vz; cbn [fst snd]; lra|]. split; [rewrite S; unfold dot, vx, vy, vz; cbn [fst snd]; lra|].
  rewrite polar_add3, east_val, north_val. unfold ahead. rewrite S. replace (0 * PI / 180) with 0 by field. rewrite cos_0, sin_0.
  replace (1 - 3 / 5 * (3 / 5)) with (4 / 5 * (4 / 5)) by lra. rewrite sqrt_square by lra. unfold add3, vx, vy, vz; cbn [fst snd]. f_equal; [f_equal|]; lra.
Qed.
(** There are readings of right ascension and declination. *)
Definition read_angles (v : vec) : R * R :=
  ((if Rleb 0 (vy v) then acos (vx v / sqrt (1 - vz v * vz v)) else - acos (vx v / sqrt (1 - vz v * vz v))) * 180 / PI, asin (vz v) * 180 / PI).
Example C71_case_angles : angles_of_directions read_angles.
Proof.
  intros [[x y] z] U. red in U. unfold dot, vx, vy, vz in U; cbn [fst snd] in U. unfold read_angles, skydir, vx, vy, vz; cbn [fst snd].
  rewrite !PI180. rewrite sin_asin by nra. rewrite cos_asin by nra. unfold Rsqr.
  assert (Z : 0 <= 1 - z * z) by nra. destruct (Req_dec (1 - z * z) 0) as [E|E].
  - rewrite E, sqrt_0. assert (x = 0) by nra. assert (y = 0) by nra. subst. rewrite !Rmult_0_l. reflexivity.
  - set (s := sqrt (1 - z * z)). assert (S0 : 0 < s) by (apply sqrt_lt_R0; lra). assert (S2 : s * s = 1 - z * z) by (apply sqrt_sqrt; lra).
    assert (XR : -1 <= x / s <= 1). { split; apply Rmult_le_reg_r with s; try exact S0; unfold Rdiv; rewrite Rmult_assoc, Rinv_l by lra; nra. }
    assert (SA : s * sin (acos (x / s)) = Rabs y).
    { rewrite sin_acos by exact XR. unfold s at 1. rewrite <- sqrt_mult_alt by lra. rewrite <- (sqrt_Rsqr_abs y). f_equal. unfold Rsqr.
      replace (x / s * (x / s)) with (x * x / (s * s)) by (field; lra). rewrite S2. replace ((1 - z * z) * (1 - x * x / (1 - z * z))) with (1 - z * z - x * x) by (field; lra). lra. }
    destruct (Rleb_spec 0 y).
    + rewrite cos_acos by exact XR. rewrite SA, Rabs_right by lra. replace (s * (x / s)) with x by (field; lra). reflexivity.
    + rewrite cos_neg, sin_neg, cos_acos by exact XR. replace (s * - sin (acos (x / s))) with (- (s * sin (acos (x / s)))) by ring. rewrite SA, Rabs_left by lra. replace (- - y) with y by ring. replace (s * (x / s)) with x by (field; lra). reflexivity.
Qed.

(** Three corners of a map behind the event (position angles of -135, 120 and 135 degrees): the range of angles
    leaves out the one of 120 degrees. *)
Example C71_case_limits : forall angles, angles_of_directions angles -> forall dir, unit_vector dir ->
  let c p := polar (fst (angles dir)) (snd (angles dir)) (1 / 2) p in
  let corners := [c (- (3 * (PI / 4))); c (2 * (PI / 3)); c (3 * (PI / 4))] in
  has_angles dir corners /\
  forall closest farthest l, getDiffRespLimits angles dir false closest farthest corners = Ok l ->
  ~ in_range (phimin l) (phimax l) (2 * (PI / 3)).
Proof.
  intros angles good dir U c corners. pose proof PI_RGT_0 as PP. set (ra := fst (angles dir)). set (dec := snd (angles dir)).
  assert (A : skydir ra dec = dir) by (now apply good).
  assert (CU : forall p, unit_vector (c p) /\ dot (c p) dir = 1 / 2).
  { intros p. assert (N0 : 1 / 2 <> 0 \/ cos p <> 0) by (left; lra). destruct (C71_direction angles good ra dec (1 / 2) p ltac:(lra) N0) as (d & _ & E & Ud & Dd). subst d. rewrite A in Dd. split; [exact Ud|exact Dd]. }
  assert (HA : has_angles dir corners).
  { split; [exact U|]. split; [discriminate|]. intros k I. assert (exists p, k = c p) by (destruct I as [<-|[<-|[<-|[]]]]; eexists; reflexivity).
    destruct H as (p & ->). destruct (CU p) as [H1 H2]. rewrite H2. split; [exact H1|]. split; lra. }
  split; [exact HA|].
  assert (PH : forall p, - PI < p < PI -> exists p', phiValue angles (dot (c p) dir) (c p) (rotation ra dec) = Ok p' /\
     (p' = p \/ 0 <= p' /\ p' = - p) /\ difference (polar ra dec (1 / 2) p') (c p) < 1 / 100000000).
  { intros p Bp. destruct (CU p) as [H1 H2]. destruct (phi_value angles good ra dec (c p) H1) as (p' & E & B & L & _ & D); unfold ahead in *; rewrite A in *; rewrite H2 in *; try lra.
    exists p'. split; [exact E|]. split; [|exact L]. unfold c in D. fold ra dec in D.
    assert (X : forall q, - PI <= q <= PI -> polar ra dec (1 / 2) q = polar ra dec (1 / 2) p -> q = p).
    { intros q Bq Eq. destruct (polar_inj ra dec (1 / 2) q p ltac:(lra) Eq) as [C S]. destruct (Req_dec q (- PI)) as [->|N].
      - exfalso. rewrite cos_neg, cos_PI in C. rewrite sin_neg, sin_PI in S. assert (p = PI); [|lra]. apply same_angle; try lra; rewrite ?cos_PI, ?sin_PI; lra.
      - apply same_angle; lra. }
    destruct D as [D|[D0 D]]; [left; now apply X|]. right. split; [exact D0|]. apply X in D; lra. }
  intros closest farthest l E.
  assert (P3 : phiValue angles (dot (c (3 * (PI / 4))) dir) (c (3 * (PI / 4))) (rotation ra dec) = Ok (3 * (PI / 4))).
  { destruct (PH (3 * (PI / 4)) ltac:(lra)) as (p & E3 & [->|[D0 D1]] & _); [exact E3|lra]. }
  assert (P2 : phiValue angles (dot (c (2 * (PI / 3))) dir) (c (2 * (PI / 3))) (rotation ra dec) = Ok (2 * (PI / 3))).
  { destruct (PH (2 * (PI / 3)) ltac:(lra)) as (p & E3 & [->|[D0 D1]] & _); [exact E3|lra]. }
  assert (P1 : phiValue angles (dot (c (- (3 * (PI / 4)))) dir) (c (- (3 * (PI / 4)))) (rotation ra dec) = Ok (- (3 * (PI / 4)))).
  { destruct (PH (- (3 * (PI / 4))) ltac:(lra)) as (p & E3 & [->|[D0 D1]] & L); [exact E3|]. exfalso. rewrite Ropp_involutive in D1. subst p.
    unfold difference in L. unfold c in L. fold ra dec in L.
    assert (N : forall a b, (vx a - vx b) * (vx a - vx b) + (vy a - vy b) * (vy a - vy b) + (vz a - vz b) * (vz a - vz b) = dot a a + dot b b - 2 * dot a b) by (intros; unfold dot; ring).
    rewrite N in L. rewrite !polar_add3 in L. rewrite !norm_add3 in L. rewrite dot_add3_r in L.
    destruct (comps ra dec (1 / 2) (sqrt (1 - 1 / 2 * (1 / 2)) * cos (3 * (PI / 4))) (sqrt (1 - 1 / 2 * (1 / 2)) * sin (3 * (PI / 4)))) as (Q1 & Q2 & Q3). rewrite Q1, Q2, Q3 in L.
    rewrite cos_neg, sin_neg in L. set (s := sqrt (1 - 1 / 2 * (1 / 2))) in L. assert (S2 : s * s = 3 / 4) by (unfold s; rewrite sqrt_sqrt; lra).
    set (y := cos (3 * (PI / 4))) in L. set (z := sin (3 * (PI / 4))) in L. assert (Z2 : z * z = 1 / 2).
    { unfold z. rewrite sin_3PI4. unfold Rdiv. rewrite !Rmult_1_l, <- Rinv_mult. rewrite sqrt_sqrt; lra. }
    replace (1 / 2 * (1 / 2) + s * y * (s * y) + s * z * (s * z) + (1 / 2 * (1 / 2) + s * y * (s * y) + s * - z * (s * - z)) - 2 * (1 / 2 * (1 / 2) + s * y * (s * y) + s * - z * (s * z)))
      with (4 * (s * s * (z * z))) in L by ring. rewrite S2, Z2 in L. replace (4 * (3 / 4 * (1 / 2))) with (3 / 2) in L by lra.
    set (w := sqrt (3 / 2)) in L. assert (W2 : w * w = 3 / 2) by (apply sqrt_sqrt; lra). assert (W0 : 0 <= w) by apply sqrt_pos.
    assert (W : 1 < w < 2) by nra. assert (K : asin (w / 2) < 1 / 200000000) by lra.
    pose proof (asin_bound (w / 2)) as AB. assert (P2' : 1 < PI / 2) by (pose proof PI2_1; lra).
    assert (S1 : sin (asin (w / 2)) < sin (1 / 200000000)) by (apply sin_increasing_1; lra). rewrite sin_asin in S1 by lra.
    assert (sin (1 / 200000000) < 1 / 200000000) by (apply sin_lt_x; lra). lra. }
  apply (C71_limits_refuted angles good dir closest farthest corners l HA E (c (- (3 * (PI / 4)))) (c (2 * (PI / 3))) (c (3 * (PI / 4))) _ _ _
           (or_introl eq_refl) (or_intror (or_introl eq_refl)) (or_intror (or_intror (or_introl eq_refl))) P1 P2 P3); lra.
Qed.
Print Assumptions C71_rotation.
Print Assumptions C71_direction.
Print Assumptions C71_covers_once.
Print Assumptions C71_pole_refuted.
Print Assumptions C71_phi_partial.
Print Assumptions C71_phi_refuted.
Print Assumptions C71_limits_inside.
Print Assumptions C71_limits_partial.
Print Assumptions C71_limits_refuted.
Print Assumptions C71_integrand.
Print Assumptions C71_split.
Print Assumptions C71_range.
Print Assumptions C71_map_sum.

(** Proofs about look-ups in a sky map. *)
From Coq Require Import Reals List Lia Lra ZArith.
From Flocq Require Import Core.
From Verif Require Import Base AccumModel AccumProofs EvtModel EvtProofs MpsfSpec MpsfProofs WmapModel WmapSpec.
Import ListNotations.
Local Open Scope R_scope.
Local Open Scope list_scope.

Lemma trunc_at x i : INR i <= x < INR i + 1 -> Ztrunc x = Z.of_nat i.
Proof.
  intros H. pose proof (pos_INR i). rewrite Ztrunc_floor by lra. apply Zfloor_imp. rewrite plus_IZR, <- INR_IZR_INZ. simpl. lra.
Qed.

Lemma round_at x i : in_column x i -> my_round x = (Z.of_nat i + 1)%Z.
Proof.
  intros H. unfold in_column in H. unfold my_round. pose proof (pos_INR i). destruct (Rlt_le_dec x (INR i + 1)) as [L|L].
  - rewrite (trunc_at x i) by lra. rewrite <- INR_IZR_INZ. destruct (Rleb_spec (1 / 2) (x - INR i)); [reflexivity|lra].
  - rewrite (trunc_at x (S i)) by (rewrite S_INR; lra). rewrite <- INR_IZR_INZ, S_INR. destruct (Rleb_spec (1 / 2) (x - (INR i + 1))); [lra|lia].
Qed.

Lemma round_low x : 0 <= x < 1 / 2 -> my_round x = 0%Z.
Proof.
  intros H. unfold my_round. rewrite (trunc_at x 0) by (simpl; lra). simpl. destruct (Rleb_spec (1 / 2) (x - 0)); [lra|reflexivity].
Qed.

(** Every coordinate from one half on lies in some column. *)
Lemma column_of x : 1 / 2 <= x -> exists i, in_column x i.
Proof.
  intros H. exists (Z.to_nat (Zfloor (x - 1 / 2))). unfold in_column. pose proof (Zfloor_lb (x - 1 / 2)). pose proof (Zfloor_ub (x - 1 / 2)).
  assert (0 <= Zfloor (x - 1 / 2))%Z by (apply Zfloor_lub; simpl; lra). rewrite INR_IZR_INZ, Z2Nat.id by assumption. lra.
Qed.

Lemma cell_of x : 0 <= x -> exists i, INR i <= x < INR i + 1.
Proof.
  intros H. exists (Z.to_nat (Zfloor x)). pose proof (Zfloor_lb x). pose proof (Zfloor_ub x).
  assert (0 <= Zfloor x)%Z by (apply Zfloor_lub; simpl; lra). rewrite INR_IZR_INZ, Z2Nat.id by assumption. lra.
Qed.

Lemma INR_lt_S i n : INR i < INR n + 1 -> (i <= n)%nat.
Proof. intros H. rewrite <- S_INR in H. apply INR_lt in H. lia. Qed.

Lemma at_z_nat {A} (l : list A) i x : nth_error l i = Some x -> at_z l (Z.of_nat i) = Ok x.
Proof.
  intros H. unfold at_z. destruct (Z.ltb_spec (Z.of_nat i) 0); [lia|]. rewrite Nat2Z.id. unfold vec_at. now rewrite H.
Qed.

Lemma at_z_neg {A} (l : list A) i : (i < 0)%Z -> at_z l i = Throw.
Proof. intros H. unfold at_z. destruct (Z.ltb_spec i 0); [reflexivity|lia]. Qed.

Lemma index_fine w k : (k <= length (w_energies w))%nat -> index_refused w (Z.of_nat k) = false.
Proof.
  intros H. unfold index_refused. destruct (Z.ltb_spec (Z.of_nat k) 0); [lia|]. destruct (Z.ltb_spec (Z.of_nat (length (w_energies w))) (Z.of_nat k)); [lia|reflexivity].
Qed.

Section Fixed.
  Variable w : wmap.
  Notation nx := (w_n1 w).
  Notation ny := (w_n2 w).
  Notation nz := (length (w_energies w)).
  Hypothesis W : shaped (w_image w) nx ny nz.

  Lemma pixel_ex k j i : (k < nz)%nat -> (j < ny)%nat -> (i < nx)%nat -> exists v, pixel (w_image w) k j i v.
  Proof.
    intros Hk Hj Hi. destruct W as (L & P). destruct (nth_error (w_image w) k) as [plane|] eqn:E1; [|apply nth_error_None in E1; lia].
    destruct (P k plane E1) as (L2 & P2). destruct (nth_error plane j) as [row|] eqn:E2; [|apply nth_error_None in E2; lia].
    pose proof (P2 j row E2) as L1. destruct (nth_error row i) as [v|] eqn:E3; [|apply nth_error_None in E3; lia].
    exists v, plane, row. auto.
  Qed.

  Lemma pixel_bound k j i v : pixel (w_image w) k j i v -> (k < nz)%nat /\ (j < ny)%nat /\ (i < nx)%nat.
  Proof.
    intros (plane & row & E1 & E2 & E3). destruct W as (L & P). destruct (P k plane E1) as (L2 & P2). pose proof (P2 j row E2) as L1.
    assert (k < length (w_image w))%nat by (apply nth_error_Some; congruence). assert (j < length plane)%nat by (apply nth_error_Some; congruence).
    assert (i < length row)%nat by (apply nth_error_Some; congruence). lia.
  Qed.

  Lemma pixel_unique k j i v v' : pixel (w_image w) k j i v -> pixel (w_image w) k j i v' -> v = v'.
  Proof. intros (p & r & E1 & E2 & E3) (p' & r' & E1' & E2' & E3'). congruence. Qed.

  (** The nearest pixel. *)
  Lemma pixelValue_ok k j i v x y : pixel (w_image w) k j i v -> in_column x i -> in_column y j -> pixelValue w x y (Z.of_nat k) = Ok v.
  Proof.
    intros HP Hx Hy. destruct (pixel_bound _ _ _ _ HP) as (Hk & Hj & Hi). destruct HP as (plane & row & E1 & E2 & E3).
    unfold pixelValue. rewrite index_fine by lia. rewrite (round_at x i Hx), (round_at y j Hy).
    replace (Z.of_nat i + 1 - 1)%Z with (Z.of_nat i) by lia. replace (Z.of_nat j + 1 - 1)%Z with (Z.of_nat j) by lia.
    destruct (Z.ltb_spec (Z.of_nat i) 0); [lia|]. destruct (Z.leb_spec (Z.of_nat nx) (Z.of_nat i)); [lia|].
    destruct (Z.ltb_spec (Z.of_nat j) 0); [lia|]. destruct (Z.leb_spec (Z.of_nat ny) (Z.of_nat j)); [lia|].
    cbn [orb andb]. rewrite Bool.andb_false_r. cbn [orb]. rewrite Nat2Z.id. unfold vec_get. rewrite E1. cbn [obind].
    rewrite (at_z_nat _ _ _ E2). cbn [obind]. now apply at_z_nat.
  Qed.

  (** In a periodic map, left of the first half. *)
  Lemma pixelValue_left k j v x y : w_periodic w = true -> pixel (w_image w) k j 0 v -> 0 <= x < 1 / 2 -> in_column y j -> pixelValue w x y (Z.of_nat k) = Ok v.
  Proof.
    intros HPer HP Hx Hy. destruct (pixel_bound _ _ _ _ HP) as (Hk & Hj & Hi). destruct HP as (plane & row & E1 & E2 & E3).
    unfold pixelValue. rewrite index_fine by lia. rewrite (round_low x Hx), (round_at y j Hy). rewrite HPer. cbn [negb andb].
    replace (Z.of_nat j + 1 - 1)%Z with (Z.of_nat j) by lia.
    destruct (Z.ltb_spec (Z.of_nat j) 0); [lia|]. destruct (Z.leb_spec (Z.of_nat ny) (Z.of_nat j)); [lia|]. cbn [orb].
    change (0 - 1 <? 0)%Z with true. change (-1 <=? 0 - 1)%Z with true. cbn [andb]. rewrite Nat2Z.id. unfold vec_get. rewrite E1. cbn [obind].
    rewrite (at_z_nat _ _ _ E2). cbn [obind]. change 0%Z with (Z.of_nat 0). now apply at_z_nat.
  Qed.

  Definition xcoord (px : R) : R := if w_periodic w then fmod px (INR nx) else px.

  Definition off (px y : R) : Prop := (w_periodic w = false /\ (px < 1 / 2 \/ INR nx + 1 / 2 < px)) \/ y < 1 / 2 \/ INR ny + 1 / 2 < y.

  Lemma value_off k px y : (k <= nz)%nat -> off px y -> value_plane w (Some (px, y)) (Z.of_nat k) = Ok 0.
  Proof.
    intros Hk H. unfold value_plane. rewrite index_fine by exact Hk. cbv zeta.
    match goal with |- (if ?c then _ else _) = _ => assert (c = true) as ->; [|reflexivity] end.
    destruct H as [(HP & H)|[H|H]].
    - rewrite HP. cbn [negb andb]. destruct H as [H|H].
      + destruct (Rltb_spec px (1 / 2)); [reflexivity|lra].
      + destruct (Rltb_spec (INR nx + 1 / 2) px); [now rewrite Bool.orb_true_r|lra].
    - destruct (Rltb_spec y (1 / 2)); [now rewrite Bool.orb_true_r|lra].
    - destruct (Rltb_spec (INR ny + 1 / 2) y); [now rewrite Bool.orb_true_r|lra].
  Qed.

  (** Inside: what is left of the function. *)
  Lemma value_on k px y : (k <= nz)%nat -> ~ off px y ->
    value_plane w (Some (px, y)) (Z.of_nat k) =
    (let x := xcoord px in
     if negb (w_interpolate w) then pixelValue w x y (Z.of_nat k) else
     if (negb (w_periodic w) && ((Ztrunc x <? 1) || (Z.of_nat nx <=? Ztrunc x))%Z)%bool then pixelValue w x y (Z.of_nat k) else
     if ((Ztrunc y <? 1) || (Z.of_nat ny <=? Ztrunc y))%Z%bool then pixelValue w x y (Z.of_nat k) else
     obind (vec_get (w_image w) k) (fun plane =>
     obind (if (w_periodic w && (Ztrunc x =? 0)%Z)%bool
           then obind (at_z plane (Ztrunc y - 1)) (fun r1 => obind (last_of r1) (fun y1 =>
                obind (at_z plane (Ztrunc y)) (fun r4 => obind (last_of r4) (fun y4 => Ok (y1, y4)))))
           else obind (at_z plane (Ztrunc y - 1)) (fun r1 => obind (at_z r1 (Ztrunc x - 1)) (fun y1 =>
                obind (at_z plane (Ztrunc y)) (fun r4 => obind (at_z r4 (Ztrunc x - 1)) (fun y4 => Ok (y1, y4)))))) (fun y14 =>
     obind (at_z plane (Ztrunc y - 1)) (fun r2 => obind (at_z r2 (Ztrunc x)) (fun y2 =>
     obind (at_z plane (Ztrunc y)) (fun r3 => obind (at_z r3 (Ztrunc x)) (fun y3 =>
     Ok ((1 - (x - IZR (Ztrunc x))) * (1 - (y - IZR (Ztrunc y))) * fst y14 + (x - IZR (Ztrunc x)) * (1 - (y - IZR (Ztrunc y))) * y2 +
         (x - IZR (Ztrunc x)) * (y - IZR (Ztrunc y)) * y3 + (1 - (x - IZR (Ztrunc x))) * (y - IZR (Ztrunc y)) * snd y14)))))))).
  Proof.
    intros Hk H. unfold value_plane. rewrite index_fine by exact Hk. rewrite Nat2Z.id. cbv zeta. fold (xcoord px).
    match goal with |- (if ?c then _ else _) = _ => assert (c = false) as ->; [|reflexivity] end.
    destruct (Rltb_spec y (1 / 2)); [exfalso; apply H; right; left; assumption|].
    destruct (Rltb_spec (INR ny + 1 / 2) y); [exfalso; apply H; right; right; assumption|]. rewrite !Bool.orb_false_r.
    unfold xcoord. destruct (w_periodic w) eqn:E; [reflexivity|]. cbn [negb andb].
    destruct (Rltb_spec px (1 / 2)); [exfalso; apply H; left; split; [exact E|now left]|].
    destruct (Rltb_spec (INR nx + 1 / 2) px); [exfalso; apply H; left; split; [exact E|now right]|]. reflexivity.
  Qed.

  Lemma in_columns_on x y i j : w_periodic w = false -> in_column x i -> in_column y j -> (i < nx)%nat -> (j < ny)%nat -> ~ off x y.
  Proof.
    intros HP Hx Hy Hi Hj. unfold in_column in *. pose proof (pos_INR i). pose proof (pos_INR j).
    assert (INR i + 1 <= INR nx) by (rewrite <- S_INR; apply le_INR; lia). assert (INR j + 1 <= INR ny) by (rewrite <- S_INR; apply le_INR; lia).
    intros [(_ & [Q1|Q1])|[Q1|Q1]]; lra.
  Qed.

  (** No interpolation: the pixel the coordinates lie in. *)
  Lemma value_nearest k j i v x y : w_periodic w = false -> w_interpolate w = false -> pixel (w_image w) k j i v -> in_column x i -> in_column y j ->
    value_plane w (Some (x, y)) (Z.of_nat k) = Ok v.
  Proof.
    intros HP HI HV Hx Hy. destruct (pixel_bound _ _ _ _ HV) as (Hk & Hj & Hi). rewrite value_on; [|lia|now apply (in_columns_on x y i j)].
    cbv zeta. rewrite HI. cbn [negb]. unfold xcoord. rewrite HP. now apply (pixelValue_ok k j i).
  Qed.

  (** In the border, half a pixel wide. *)
  Lemma value_border k j i v x y : w_periodic w = false -> pixel (w_image w) k j i v -> in_column x i -> in_column y j ->
    x < 1 \/ INR nx <= x \/ y < 1 \/ INR ny <= y -> value_plane w (Some (x, y)) (Z.of_nat k) = Ok v.
  Proof.
    intros HP HV Hx Hy HB. destruct (pixel_bound _ _ _ _ HV) as (Hk & Hj & Hi). rewrite value_on; [|lia|now apply (in_columns_on x y i j)].
    cbv zeta. unfold xcoord. rewrite HP. cbn [negb andb].
    pose proof (pixelValue_ok k j i v x y HV Hx Hy) as PV. destruct (negb (w_interpolate w)); [exact PV|].
    assert (0 <= x /\ 0 <= y) as (X0 & Y0) by (unfold in_column in *; pose proof (pos_INR i); pose proof (pos_INR j); lra).
    assert (LO : forall z, z < 1 -> 0 <= z -> (Ztrunc z <? 1)%Z = true).
    { intros z Hz Hz0. rewrite (trunc_at z 0) by (simpl; lra). reflexivity. }
    assert (HI : forall z n, INR n <= z -> (Z.of_nat n <=? Ztrunc z)%Z = true).
    { intros z n Hz. apply Z.leb_le. pose proof (pos_INR n). rewrite Ztrunc_floor by lra. apply Zfloor_lub. rewrite <- INR_IZR_INZ. lra. }
    destruct ((Ztrunc x <? 1) || (Z.of_nat nx <=? Ztrunc x))%Z%bool eqn:Ex; [exact PV|].
    destruct ((Ztrunc y <? 1) || (Z.of_nat ny <=? Ztrunc y))%Z%bool eqn:Ey; [exact PV|]. exfalso.
    destruct HB as [H|[H|[H|H]]].
    - rewrite (LO x H X0) in Ex. discriminate.
    - rewrite (HI x _ H) in Ex. rewrite Bool.orb_true_r in Ex. discriminate.
    - rewrite (LO y H Y0) in Ey. discriminate.
    - rewrite (HI y _ H) in Ey. rewrite Bool.orb_true_r in Ey. discriminate.
  Qed.

  Lemma four k j i v00 v10 v01 v11 : pixel (w_image w) k j i v00 -> pixel (w_image w) k j (S i) v10 -> pixel (w_image w) k (S j) i v01 -> pixel (w_image w) k (S j) (S i) v11 ->
    exists plane r0 r1, nth_error (w_image w) k = Some plane /\ nth_error plane j = Some r0 /\ nth_error plane (S j) = Some r1 /\
      nth_error r0 i = Some v00 /\ nth_error r0 (S i) = Some v10 /\ nth_error r1 i = Some v01 /\ nth_error r1 (S i) = Some v11.
  Proof.
    intros (p & r & A1 & A2 & A3) (p' & r' & B1 & B2 & B3) (p'' & q & C1 & C2 & C3) (p3 & q' & D1 & D2 & D3).
    rewrite A1 in B1, C1, D1. injection B1 as <-. injection C1 as <-. injection D1 as <-. rewrite A2 in B2. injection B2 as <-. rewrite C2 in D2. injection D2 as <-.
    exists p, r, q. repeat split; assumption.
  Qed.

  (** Between four centres: bilinear. *)
  Lemma value_bilinear k j i v00 v10 v01 v11 px y :
    pixel (w_image w) k j i v00 -> pixel (w_image w) k j (S i) v10 -> pixel (w_image w) k (S j) i v01 -> pixel (w_image w) k (S j) (S i) v11 ->
    w_interpolate w = true -> INR i + 1 <= xcoord px < INR i + 2 -> INR j + 1 <= y < INR j + 2 ->
    value_plane w (Some (px, y)) (Z.of_nat k) = Ok (bilinear v00 v10 v01 v11 (xcoord px - (INR i + 1)) (y - (INR j + 1))).
  Proof.
    intros P00 P10 P01 P11 HI Hx Hy. destruct (pixel_bound _ _ _ _ P11) as (Hk & Hj & Hi).
    destruct (four k j i _ _ _ _ P00 P10 P01 P11) as (plane & r0 & r1 & E & E0 & E1 & F00 & F10 & F01 & F11).
    assert (INR i + 2 <= INR nx) by (replace (INR i + 2) with (INR (S (S i))) by (rewrite !S_INR; ring); apply le_INR; lia).
    assert (INR j + 2 <= INR ny) by (replace (INR j + 2) with (INR (S (S j))) by (rewrite !S_INR; ring); apply le_INR; lia).
    pose proof (pos_INR i). pose proof (pos_INR j).
    rewrite value_on; [|lia|].
    2:{ intros [(HP & [Q|Q])|[Q|Q]]; [| |lra|lra]; unfold xcoord in Hx; rewrite HP in Hx; lra. }
    cbv zeta. rewrite HI. cbn [negb].
    rewrite (trunc_at (xcoord px) (S i)) by (rewrite S_INR; lra). rewrite (trunc_at y (S j)) by (rewrite S_INR; lra).
    destruct (Z.ltb_spec (Z.of_nat (S i)) 1); [lia|]. destruct (Z.leb_spec (Z.of_nat nx) (Z.of_nat (S i))); [lia|].
    destruct (Z.ltb_spec (Z.of_nat (S j)) 1); [lia|]. destruct (Z.leb_spec (Z.of_nat ny) (Z.of_nat (S j))); [lia|].
    cbn [orb]. rewrite Bool.andb_false_r. unfold vec_get. rewrite E. cbn [obind].
    destruct (Z.eqb_spec (Z.of_nat (S i)) 0); [lia|]. rewrite Bool.andb_false_r.
    replace (Z.of_nat (S i) - 1)%Z with (Z.of_nat i) by lia. replace (Z.of_nat (S j) - 1)%Z with (Z.of_nat j) by lia.
    rewrite (at_z_nat _ _ _ E0), (at_z_nat _ _ _ E1). cbn [obind]. rewrite (at_z_nat _ _ _ F00). cbn [obind]. rewrite (at_z_nat _ _ _ F01). cbn [obind fst snd].
    rewrite (at_z_nat _ _ _ F10). cbn [obind]. rewrite (at_z_nat _ _ _ F11). cbn [obind]. rewrite <- !INR_IZR_INZ, !S_INR. f_equal. unfold bilinear. ring.
  Qed.

  Lemma last_nth (r : list R) n v : nth_error r n = Some v -> length r = S n -> last_of r = Ok v.
  Proof.
    intros H L. unfold last_of. destruct r as [|a l]; [discriminate L|]. f_equal. pose proof (exists_last (l := a :: l) ltac:(discriminate)) as (l' & z & E). rewrite E in *.
    rewrite last_last. rewrite app_length in L. simpl in L. assert (length l' = n) by lia. subst n. rewrite nth_error_app2 in H by lia. rewrite Nat.sub_diag in H. simpl in H. congruence.
  Qed.

  (** Between the last and the first column of a periodic map. *)
  Lemma value_seam k j m v00 v10 v01 v11 px y : w_periodic w = true -> nx = S m ->
    pixel (w_image w) k j m v00 -> pixel (w_image w) k j 0 v10 -> pixel (w_image w) k (S j) m v01 -> pixel (w_image w) k (S j) 0 v11 ->
    w_interpolate w = true -> Ztrunc (xcoord px) = 0%Z -> INR j + 1 <= y < INR j + 2 ->
    value_plane w (Some (px, y)) (Z.of_nat k) = Ok (bilinear v00 v10 v01 v11 (xcoord px) (y - (INR j + 1))).
  Proof.
    intros HPer HM P00 P10 P01 P11 HI Hx Hy. destruct (pixel_bound _ _ _ _ P11) as (Hk & Hj & Hi).
    destruct P00 as (plane & r0 & E & E0 & F00). destruct P01 as (plane' & r1 & E' & E1 & F01). rewrite E in E'. injection E' as <-.
    destruct P10 as (plane' & r0' & E' & E0' & F10). rewrite E in E'. injection E' as <-. rewrite E0 in E0'. injection E0' as <-.
    destruct P11 as (plane' & r1' & E' & E1' & F11). rewrite E in E'. injection E' as <-. rewrite E1 in E1'. injection E1' as <-.
    assert (INR j + 2 <= INR ny) by (replace (INR j + 2) with (INR (S (S j))) by (rewrite !S_INR; ring); apply le_INR; lia).
    pose proof (pos_INR j).
    rewrite value_on; [|lia|].
    2:{ intros [(HP & Q)|[Q|Q]]; [congruence|lra|lra]. }
    cbv zeta. rewrite HI, HPer. cbn [negb andb]. rewrite Hx. rewrite (trunc_at y (S j)) by (rewrite S_INR; lra).
    destruct (Z.ltb_spec (Z.of_nat (S j)) 1); [lia|]. destruct (Z.leb_spec (Z.of_nat ny) (Z.of_nat (S j))); [lia|].
    cbn [orb]. unfold vec_get. rewrite E. cbn [obind]. change (0 =? 0)%Z with true. cbv iota.
    replace (Z.of_nat (S j) - 1)%Z with (Z.of_nat j) by lia.
    destruct W as (_ & WP). destruct (WP k plane E) as (_ & WR). pose proof (WR _ _ E0) as LR0. pose proof (WR _ _ E1) as LR1.
    rewrite (at_z_nat _ _ _ E0), (at_z_nat _ _ _ E1). cbn [obind]. rewrite (last_nth _ _ _ F00) by congruence. cbn [obind]. rewrite (last_nth _ _ _ F01) by congruence. cbn [obind fst snd].
    change 0%Z with (Z.of_nat 0). rewrite (at_z_nat _ _ _ F10). cbn [obind]. rewrite (at_z_nat _ _ _ F11). cbn [obind]. rewrite <- !INR_IZR_INZ, !S_INR. f_equal. unfold bilinear. simpl. ring.
  Qed.

  Lemma fmod_range x n : 0 < n -> 0 <= x -> 0 <= fmod x n < n.
  Proof.
    intros Hn Hx. unfold fmod. assert (0 <= x / n) by (apply Rmult_le_pos; [lra|left; now apply Rinv_0_lt_compat]).
    rewrite Ztrunc_floor by assumption. pose proof (Zfloor_lb (x / n)) as A. pose proof (Zfloor_ub (x / n)) as B.
    assert (x = x / n * n) as EX by (field; lra). set (q := IZR (Zfloor (x / n))) in *.
    split.
    - assert (q * n <= x / n * n) by (apply Rmult_le_compat_r; lra). lra.
    - assert (x / n * n < (q + 1) * n) by (apply Rmult_lt_compat_r; lra). lra.
  Qed.

  Lemma fmod_shift x n : 0 < n -> 0 <= x -> fmod (x + n) n = fmod x n.
  Proof.
    intros Hn Hx. unfold fmod. assert (0 <= x / n) by (apply Rmult_le_pos; [lra|left; now apply Rinv_0_lt_compat]).
    replace ((x + n) / n) with (x / n + 1) by (field; lra). rewrite !Ztrunc_floor by lra.
    assert (Zfloor (x / n + 1) = (Zfloor (x / n) + 1)%Z) as ->.
    { apply Zfloor_imp. pose proof (Zfloor_lb (x / n)). pose proof (Zfloor_ub (x / n)). rewrite !plus_IZR. simpl. lra. }
    rewrite plus_IZR. simpl. ring.
  Qed.

  Lemma fmod_small x n : 0 <= x < n -> fmod x n = x.
  Proof.
    intros Hx. unfold fmod. assert (0 <= x / n < 1).
    { split; [apply Rmult_le_pos; [lra|left; apply Rinv_0_lt_compat; lra]|]. apply Rmult_lt_reg_r with n; [lra|]. replace (x / n * n) with x by (field; lra). lra. }
    rewrite (trunc_at (x / n) 0) by (simpl; lra). simpl. ring.
  Qed.

  Lemma fmod_small_neg x n : 0 < n -> - n < x <= 0 -> fmod x n = x.
  Proof.
    intros Hn Hx. unfold fmod. assert (-1 < x / n <= 0).
    { split; [apply Rmult_lt_reg_r with n; [lra|]|apply Rmult_le_reg_r with n; [lra|]]; replace (x / n * n) with x by (field; lra); lra. }
    assert (Ztrunc (x / n) = 0%Z) as -> by (rewrite Ztrunc_ceil by lra; apply Zceil_imp; simpl; lra). simpl. ring.
  Qed.

  (** Whatever is found is zero, a pixel or a mean of four pixels. *)
  Lemma bilinear_bounds lo hi v00 v10 v01 v11 t u : 0 <= t <= 1 -> 0 <= u <= 1 ->
    lo <= v00 <= hi -> lo <= v10 <= hi -> lo <= v01 <= hi -> lo <= v11 <= hi -> lo <= bilinear v00 v10 v01 v11 t u <= hi.
  Proof.
    intros Ht Hu H00 H10 H01 H11. unfold bilinear.
    assert (C : forall a b s l h, 0 <= s <= 1 -> l <= a <= h -> l <= b <= h -> l <= (1 - s) * a + s * b <= h).
    { intros a b s l h Hs Ha Hb. assert (0 <= (1 - s) * (a - l)) by (apply Rmult_le_pos; lra). assert (0 <= s * (b - l)) by (apply Rmult_le_pos; lra).
      assert (0 <= (1 - s) * (h - a)) by (apply Rmult_le_pos; lra). assert (0 <= s * (h - b)) by (apply Rmult_le_pos; lra). lra. }
    apply C; [exact Ht|now apply C|now apply C].
  Qed.

  Lemma value_bounds k px y lo hi : (k < nz)%nat -> (0 < nx)%nat -> (w_periodic w = true -> 0 <= px) ->
    (forall j i v, pixel (w_image w) k j i v -> lo <= v <= hi) -> lo <= 0 <= hi ->
    exists v, value_plane w (Some (px, y)) (Z.of_nat k) = Ok v /\ lo <= v <= hi.
  Proof.
    intros Hk Hn1 Hper HB H0.
    assert (Dec : off px y \/ ~ off px y).
    { unfold off. destruct (w_periodic w); destruct (Rlt_le_dec px (1 / 2)); destruct (Rlt_le_dec (INR nx + 1 / 2) px); destruct (Rlt_le_dec y (1 / 2)); destruct (Rlt_le_dec (INR ny + 1 / 2) y);
        first [left; tauto|left; left; split; [reflexivity|lra]|right; intros [(? & [?|?])|[?|?]]; (lra || discriminate)]. }
    destruct Dec as [HO|HO]; [exists 0; split; [apply value_off; [lia|exact HO]|exact H0]|].
    assert (N1 : 1 <= INR nx) by (apply (le_INR 1); lia).
    assert (HY : 1 / 2 <= y <= INR ny + 1 / 2).
    { split; apply Rnot_lt_le; intros Q; apply HO; right; [left|right]; exact Q. }
    assert (HX : 0 <= xcoord px /\ (w_periodic w = false -> 1 / 2 <= px <= INR nx + 1 / 2) /\ (w_periodic w = true -> xcoord px < INR nx)).
    { unfold xcoord. destruct (w_periodic w) eqn:E.
      - pose proof (fmod_range px (INR nx) ltac:(lra) (Hper eq_refl)). split; [lra|]. split; [discriminate|]. lra.
      - assert (1 / 2 <= px <= INR nx + 1 / 2). { split; apply Rnot_lt_le; intros Q; apply HO; left; split; [exact E|now left|exact E|now right]. }
        split; [lra|]. split; [intros _; assumption|discriminate]. }
    destruct HX as (X0 & XN & XP).
    assert (PVY : forall x, 0 <= x -> (w_periodic w = true -> x < INR nx) -> (w_periodic w = false -> 1 / 2 <= x) -> exists v, pixelValue w x y (Z.of_nat k) = Ok v /\ lo <= v <= hi).
    { intros x Hx HxP HxN. destruct (column_of y ltac:(lra)) as (j & Hj).
      assert (AY : (j < ny)%nat \/ pixelValue w x y (Z.of_nat k) = Ok 0).
      { destruct (lt_dec j ny) as [L|L]; [now left|right]. unfold pixelValue. rewrite index_fine by lia. rewrite (round_at y j Hj). cbv zeta.
        match goal with |- (if ?c then _ else _) = _ => assert (c = true) as ->; [|reflexivity] end.
        assert ((Z.of_nat ny <=? Z.of_nat j + 1 - 1)%Z = true) as -> by (apply Z.leb_le; lia). apply Bool.orb_true_r. }
      destruct AY as [AY|AY]; [|exists 0; split; assumption].
      destruct (Rlt_le_dec x (1 / 2)) as [L|L].
      - destruct (w_periodic w) eqn:E; [|exfalso; pose proof (HxN eq_refl); lra].
        destruct (pixel_ex k j 0 Hk AY Hn1) as (v & HV). exists v. split; [now apply (pixelValue_left k j)|exact (HB _ _ _ HV)].
      - destruct (column_of x L) as (i & Hi). destruct (lt_dec i nx) as [L1|L1].
        + destruct (pixel_ex k j i Hk AY L1) as (v & HV). exists v. split; [now apply (pixelValue_ok k j i)|exact (HB _ _ _ HV)].
        + destruct (w_periodic w) eqn:E.
          * exfalso. pose proof (HxP eq_refl). assert (INR nx <= INR i) by (apply le_INR; lia). unfold in_column in Hi. lra.
          * exists 0. split; [|exact H0]. unfold pixelValue. rewrite index_fine by lia. rewrite (round_at y j Hj), (round_at x i Hi), E. cbv zeta. cbn [negb andb].
            match goal with |- (if ?c then _ else _) = _ => assert (c = true) as ->; [|reflexivity] end.
            assert ((Z.of_nat nx <=? Z.of_nat i + 1 - 1)%Z = true) as -> by (apply Z.leb_le; lia). now rewrite Bool.orb_true_r. }
    pose proof (PVY (xcoord px) X0 XP ltac:(intros E; unfold xcoord; rewrite E; apply XN; exact E)) as PV.
    destruct (w_interpolate w) eqn:HI.
    2:{ rewrite value_on by (lia || exact HO). cbv zeta. rewrite HI. exact PV. }
    destruct (cell_of y ltac:(lra)) as (jj & Hjj). destruct (cell_of (xcoord px) X0) as (ii & Hii).
    destruct (Nat.eq_dec jj 0) as [->|J0].
    { rewrite value_on by (lia || exact HO). cbv zeta. rewrite HI. cbn [negb]. destruct (negb (w_periodic w) && _)%bool; [exact PV|]. rewrite (trunc_at y 0) by exact Hjj. exact PV. }
    destruct (le_lt_dec ny jj) as [J1|J1].
    { rewrite value_on by (lia || exact HO). cbv zeta. rewrite HI. cbn [negb]. destruct (negb (w_periodic w) && _)%bool; [exact PV|]. rewrite (trunc_at y jj) by exact Hjj.
      destruct (Z.leb_spec (Z.of_nat ny) (Z.of_nat jj)); [|lia]. rewrite Bool.orb_true_r. exact PV. }
    assert (HJ : INR (jj - 1) + 1 <= y < INR (jj - 1) + 2) by (replace jj with (S (jj - 1)) in Hjj by lia; rewrite S_INR in Hjj; lra).
    assert (BB : forall t u v00 v10 v01 v11 j0 i0 i1 j1, 0 <= t <= 1 -> 0 <= u <= 1 -> pixel (w_image w) k j0 i0 v00 -> pixel (w_image w) k j0 i1 v10 -> pixel (w_image w) k j1 i0 v01 -> pixel (w_image w) k j1 i1 v11 ->
      lo <= bilinear v00 v10 v01 v11 t u <= hi).
    { intros. apply bilinear_bounds; try assumption; eapply HB; eassumption. }
    destruct (Nat.eq_dec ii 0) as [->|I0].
    - destruct (w_periodic w) eqn:E.
      + destruct nx as [|m] eqn:EN; [lia|]. rewrite <- EN in *.
        destruct (pixel_ex k (jj - 1) m Hk ltac:(lia) ltac:(lia)) as (v00 & P00). destruct (pixel_ex k (jj - 1) 0 Hk ltac:(lia) ltac:(lia)) as (v10 & P10).
        destruct (pixel_ex k (S (jj - 1)) m Hk ltac:(lia) ltac:(lia)) as (v01 & P01). destruct (pixel_ex k (S (jj - 1)) 0 Hk ltac:(lia) ltac:(lia)) as (v11 & P11).
        rewrite (value_seam k (jj - 1) m v00 v10 v01 v11 px y E EN P00 P10 P01 P11 HI (trunc_at _ 0 Hii) HJ). eexists. split; [reflexivity|].
        simpl in Hii. refine (BB _ _ _ _ _ _ _ _ _ _ _ _ P00 P10 P01 P11); lra.
      + rewrite value_on by (lia || exact HO). cbv zeta. rewrite HI, E. cbn [negb andb]. rewrite (trunc_at (xcoord px) 0) by exact Hii. exact PV.
    - destruct (le_lt_dec nx ii) as [I1|I1].
      + destruct (w_periodic w) eqn:E; [exfalso; pose proof (XP eq_refl); apply le_INR in I1; lra|].
        rewrite value_on by (lia || exact HO). cbv zeta. rewrite HI, E. cbn [negb andb]. rewrite (trunc_at (xcoord px) ii) by exact Hii.
        destruct (Z.leb_spec (Z.of_nat nx) (Z.of_nat ii)); [|lia]. rewrite Bool.orb_true_r. exact PV.
      + assert (HI' : INR (ii - 1) + 1 <= xcoord px < INR (ii - 1) + 2) by (replace ii with (S (ii - 1)) in Hii by lia; rewrite S_INR in Hii; lra).
        destruct (pixel_ex k (jj - 1) (ii - 1) Hk ltac:(lia) ltac:(lia)) as (v00 & P00). destruct (pixel_ex k (jj - 1) (S (ii - 1)) Hk ltac:(lia) ltac:(lia)) as (v10 & P10).
        destruct (pixel_ex k (S (jj - 1)) (ii - 1) Hk ltac:(lia) ltac:(lia)) as (v01 & P01). destruct (pixel_ex k (S (jj - 1)) (S (ii - 1)) Hk ltac:(lia) ltac:(lia)) as (v11 & P11).
        rewrite (value_bilinear k (jj - 1) (ii - 1) v00 v10 v01 v11 px y P00 P10 P01 P11 HI HI' HJ). eexists. split; [reflexivity|].
        refine (BB _ _ _ _ _ _ _ _ _ _ _ _ P00 P10 P01 P11); lra.
  Qed.
End Fixed.

(** ** Energies *)

Lemma increasing_ascending l : increasing l -> ascending l.
Proof. intros H. exact H. Qed.

Lemma pair_upper l x k a b : increasing l -> pair_for l x k a b ->
  exists u, std_upper_bound l x = Ok u /\
    (let k0 := (Z.of_nat u - 1)%Z in
     let k1 := if (Z.of_nat (length l) - 2 <? k0)%Z then (Z.of_nat (length l) - 2)%Z else k0 in
     if (k1 <? 0)%Z then 0%Z else k1) = Z.of_nat k.
Proof.
  intros HI (Ha & Hb & Hlo & Hhi). pose proof (nth_error_nth l k 0 Ha) as Na. pose proof (nth_error_nth l (S k) 0 Hb) as Nb.
  assert (Hk : (S k < length l)%nat) by (apply nth_error_Some; congruence). assert (Hl : l <> []) by (intros ->; simpl in Hk; lia).
  assert (Hab : a < b) by (apply (HI k); assumption).
  destruct (Rlt_le_dec x (nth 0 l 0)) as [L|L].
  - exists 0%nat. split; [now apply ub_below|]. destruct Hlo as [Hlo| ->].
    + exfalso. destruct (Nat.eq_dec k 0) as [->|K0]; [rewrite Na in L; lra|]. pose proof (ascending_nth l HI 0 k ltac:(lia) ltac:(lia)). lra.
    + cbv zeta. destruct (Z.ltb_spec (Z.of_nat (length l) - 2) (Z.of_nat 0 - 1)); [lia|]. destruct (Z.ltb_spec (Z.of_nat 0 - 1) 0); [reflexivity|lia].
  - assert (Hlo' : a <= x). { destruct Hlo as [H| ->]; [exact H|]. rewrite <- Na. exact L. }
    destruct (Rlt_le_dec x b) as [Lb|Lb].
    + exists (S k). split; [apply ub_at; [exact HI|lia|lra|intros _; lra]|]. cbv zeta.
      destruct (Z.ltb_spec (Z.of_nat (length l) - 2) (Z.of_nat (S k) - 1)); [lia|]. destruct (Z.ltb_spec (Z.of_nat (S k) - 1) 0); lia.
    + assert (E : S (S k) = length l) by (destruct Hhi as [H|H]; [lra|exact H]).
      exists (S (S k)). split; [apply ub_at; [exact HI|lia|lra|lia]|]. cbv zeta.
      destruct (Z.ltb_spec (Z.of_nat (length l) - 2) (Z.of_nat (S (S k)) - 1)); [|lia]. destruct (Z.ltb_spec (Z.of_nat (length l) - 2) 0); lia.
Qed.

Lemma pair_lower w x k a b : increasing (w_energies w) -> w_naxes w = 3%nat -> pair_for (w_energies w) x k a b -> lower_plane w x = Ok (Z.of_nat k).
Proof.
  intros HI HN HP. unfold lower_plane. rewrite HN. assert (1 < length (w_energies w))%nat.
  { destruct HP as (_ & Hb & _). assert (S k < length (w_energies w))%nat by (apply nth_error_Some; congruence). lia. }
  rewrite (proj2 (Nat.ltb_lt _ _)) by assumption. cbn [Nat.eqb andb]. destruct (pair_upper _ _ _ _ _ HI HP) as (u & E & F). rewrite E. cbn [obind]. f_equal. exact F.
Qed.

Lemma power_law_ok x x1 x2 y1 y2 : 0 < x -> 0 < x1 -> 0 < x2 -> x1 <> x2 -> 0 < y1 -> 0 < y2 ->
  exists y, interpolatePowerLaw x x1 x2 y1 y2 = Ok y /\ on_power_law x1 y1 x2 y2 x y.
Proof.
  intros Hx H1 H2 Hne G1 G2. unfold interpolatePowerLaw.
  destruct (Reqb_spec y1 0); [lra|]. destruct (Reqb_spec y2 0); [lra|]. cbn [andb orb].
  destruct (Rleb_spec x1 0); [lra|]. destruct (Rleb_spec x2 0); [lra|]. destruct (Rleb_spec y1 0); [lra|]. destruct (Rleb_spec y2 0); [lra|]. cbn [orb].
  destruct (Reqb_spec x2 x1); [congruence|]. destruct (Rleb_spec x 0); [lra|]. cbn [orb]. eexists. split; [reflexivity|].
  set (g := ln (y2 / y1) / ln (x2 / x1)). exists (y1 * Rpower x1 (- g)), g.
  assert (P1 : Rpower x1 (- g) * Rpower x1 g = 1) by (rewrite <- Rpower_plus; rewrite Rplus_opp_l; apply Rpower_O; exact H1).
  assert (DIV : forall a, 0 < a -> Rpower (a / x1) g = Rpower a g * Rpower x1 (- g)).
  { intros a Ha. unfold Rpower. rewrite <- exp_plus. f_equal. unfold Rdiv. rewrite ln_mult by (try assumption; now apply Rinv_0_lt_compat). rewrite ln_Rinv by assumption. ring. }
  split; [|split].
  - rewrite Rmult_assoc, P1. ring.
  - rewrite Rmult_assoc, (Rmult_comm (Rpower x1 (- g))), <- DIV by assumption.
    assert (LN : ln (x2 / x1) <> 0).
    { intros Z. rewrite <- ln_1 in Z. apply ln_inv in Z; [|apply Rdiv_lt_0_compat; assumption|lra]. apply Hne. apply Rmult_eq_reg_r with (/ x1); [|apply Rinv_neq_0_compat; lra]. unfold Rdiv in Z. rewrite Z. apply Rinv_r. lra. }
    unfold Rpower, g. replace (ln (y2 / y1) / ln (x2 / x1) * ln (x2 / x1)) with (ln (y2 / y1)) by (field; exact LN).
    rewrite exp_ln by (apply Rdiv_lt_0_compat; assumption). field. lra.
  - rewrite DIV by assumption. ring.
Qed.

(** A power law between two points stays between their ordinates. *)
Lemma power_law_between x1 y1 x2 y2 x y : 0 < x1 -> x1 <= x <= x2 -> 0 < y1 -> 0 < y2 -> on_power_law x1 y1 x2 y2 x y -> Rmin y1 y2 <= y <= Rmax y1 y2.
Proof.
  intros H1 Hx G1 G2 (n & g & -> & -> & ->).
  assert (Hn : 0 < n). { destruct (Rlt_le_dec 0 n); [assumption|]. exfalso. pose proof (exp_pos (g * ln x1)). unfold Rpower in G1. assert (0 <= - n * exp (g * ln x1)) by (apply Rmult_le_pos; lra). lra. }
  assert (L : forall a b, 0 < a -> a <= b -> ln a <= ln b). { intros a b Ha [Hab| ->]; [left; now apply ln_increasing|lra]. }
  pose proof (L x1 x H1 (proj1 Hx)) as La. pose proof (L x x2 ltac:(lra) (proj2 Hx)) as Lb.
  assert (EM : forall a b, a <= b -> n * exp a <= n * exp b). { intros a b [Hab| ->]; [|lra]. apply Rmult_le_compat_l; [lra|]. left. now apply exp_increasing. }
  unfold Rpower. destruct (Rle_lt_dec 0 g) as [Hg|Hg].
  - assert (g * ln x1 <= g * ln x) by (apply Rmult_le_compat_l; assumption). assert (g * ln x <= g * ln x2) by (apply Rmult_le_compat_l; assumption).
    pose proof (EM _ _ H). pose proof (EM _ _ H0). split; [eapply Rle_trans; [apply Rmin_l|assumption]|eapply Rle_trans; [|apply Rmax_r]; assumption].
  - assert (g * ln x <= g * ln x1) by (apply Rmult_le_compat_neg_l; lra). assert (g * ln x2 <= g * ln x) by (apply Rmult_le_compat_neg_l; lra).
    pose proof (EM _ _ H). pose proof (EM _ _ H0). split; [eapply Rle_trans; [apply Rmin_r|assumption]|eapply Rle_trans; [|apply Rmax_l]; assumption].
Qed.

Lemma linear_ok x x1 x2 y1 y2 : x1 < x2 -> (y1 = 0 \/ y2 = 0) -> x1 <= x <= x2 ->
  exists y, interpolatePowerLaw x x1 x2 y1 y2 = Ok y /\ on_line x1 y1 x2 y2 x y.
Proof.
  intros H12 HZ Hx. unfold interpolatePowerLaw.
  destruct (Rltb_spec x x1); [lra|]. destruct (Rltb_spec x2 x); [lra|]. cbn [andb orb]. destruct (Reqb_spec x2 x1); [lra|].
  assert (LN : on_line x1 y1 x2 y2 x ((x - x1) / (x2 - x1) * (y2 - y1) + y1)) by (unfold on_line; field; lra).
  destruct (Reqb_spec y1 0) as [->|N1]; destruct (Reqb_spec y2 0) as [->|N2]; cbn [andb orb].
  - exists 0. split; [reflexivity|]. unfold on_line. ring.
  - eexists. split; [reflexivity|exact LN].
  - eexists. split; [reflexivity|exact LN].
  - destruct HZ; contradiction.
Qed.

Lemma nonneg_ok x x1 x2 y1 y2 y : x1 < x2 -> 0 <= y1 -> 0 <= y2 -> interpolatePowerLaw x x1 x2 y1 y2 = Ok y -> 0 <= y.
Proof.
  intros H12 G1 G2. unfold interpolatePowerLaw.
  destruct (Reqb_spec y1 0) as [->|N1]; destruct (Reqb_spec y2 0) as [->|N2]; cbn [andb orb].
  - intros H. injection H as <-. lra.
  - rewrite !Bool.andb_true_r, !Bool.andb_false_r, Bool.orb_false_r. destruct (Rltb_spec x x1); [intros H; injection H as <-; lra|].
    destruct (Reqb_spec x2 x1); [lra|]. intros H. injection H as <-. 
    assert (0 <= (x - x1) / (x2 - x1)) by (apply Rmult_le_pos; [lra|left; apply Rinv_0_lt_compat; lra]).
    assert (0 <= (x - x1) / (x2 - x1) * (y2 - 0)) by (apply Rmult_le_pos; lra). lra.
  - rewrite !Bool.andb_true_r, !Bool.andb_false_r. cbn [orb]. destruct (Rltb_spec x2 x); [intros H; injection H as <-; lra|].
    destruct (Reqb_spec x2 x1); [lra|]. intros H. injection H as <-.
    assert (E : (x - x1) / (x2 - x1) * (0 - y1) + y1 = (x2 - x) / (x2 - x1) * y1) by (field; lra). rewrite E.
    apply Rmult_le_pos; [|lra]. apply Rmult_le_pos; [lra|left; apply Rinv_0_lt_compat; lra].
  - destruct (Rleb x1 0 || Rleb x2 0 || Rleb y1 0 || Rleb y2 0)%bool; [discriminate|]. destruct (Reqb x2 x1 || Rleb x 0)%bool; [discriminate|].
    intros H. injection H as <-. apply Rmult_le_pos; [lra|]. left. apply exp_pos.
Qed.

(** The integral over a plane at an energy. *)
Lemma mapIntegral_pair w x k a b i1 i2 : increasing (w_energies w) -> pair_for (w_energies w) x k a b -> length (w_integrals w) = length (w_energies w) ->
  nth_error (w_integrals w) k = Some i1 -> nth_error (w_integrals w) (S k) = Some i2 -> 0 < i1 -> 0 < i2 -> 0 < a -> 0 < x -> (w_enforce w = false \/ a <= x <= b) ->
  exists v, mapIntegral w x = Ok v /\ on_power_law a i1 b i2 x v.
Proof.
  intros HI HP HL H1 H2 G1 G2 Ga Gx HE. pose proof HP as (Ha & Hb & Hlo & Hhi).
  assert (Hk : (S k < length (w_energies w))%nat) by (apply nth_error_Some; congruence).
  assert (Hab : a < b) by (apply (HI k); assumption).
  pose proof (nth_error_nth _ _ 0 Ha) as Na. pose proof (nth_error_nth _ _ 0 Hb) as Nb.
  unfold mapIntegral.
  assert (CE : check_energy w x = Ok tt).
  { unfold check_energy. destruct (w_enforce w); [|reflexivity]. destruct HE as [HE|HE]; [discriminate|]. unfold front, back.
    rewrite (vec_get_ok _ 0 0) by lia. destruct (w_energies w) as [|z l] eqn:EE; [simpl in Hk; lia|]. rewrite <- EE in *. rewrite (vec_get_ok _ (length (w_energies w) - 1) 0) by lia. cbn [obind].
    assert (nth 0 (w_energies w) 0 <= a). { rewrite <- Na. destruct (Nat.eq_dec k 0) as [->|K0]; [lra|]. left. apply (ascending_nth _ HI); lia. }
    assert (b <= nth (length (w_energies w) - 1) (w_energies w) 0). { rewrite <- Nb. destruct (Nat.eq_dec (S k) (length (w_energies w) - 1)) as [->|K0]; [lra|]. left. apply (ascending_nth _ HI); lia. }
    destruct (Rltb_spec x (nth 0 (w_energies w) 0)); [lra|]. destruct (Rltb_spec (nth (length (w_energies w) - 1) (w_energies w) 0) x); [lra|]. reflexivity. }
  rewrite CE. cbn [obind]. rewrite (proj2 (Nat.ltb_lt _ _)) by lia.
  destruct (pair_upper _ _ _ _ _ HI HP) as (u & E & F). rewrite E. cbn [obind]. cbv zeta in F.
  assert (LN : ln (b / a) <> 0).
  { intros Z. rewrite <- ln_1 in Z. apply ln_inv in Z; [|apply Rdiv_lt_0_compat; lra|lra]. assert (b = a) by (apply Rmult_eq_reg_r with (/ a); [|apply Rinv_neq_0_compat; lra]; unfold Rdiv in Z; rewrite Z; symmetry; apply Rinv_r; lra). lra. }
  assert (PL : on_power_law a i1 b i2 x (i1 * exp (ln (x / a) / ln (b / a) * ln (i2 / i1)))).
  { destruct (power_law_ok x a b i1 i2 Gx Ga ltac:(lra) ltac:(lra) G1 G2) as (y & Ey & Py).
    unfold interpolatePowerLaw in Ey. destruct (Reqb_spec i1 0); [lra|]. destruct (Reqb_spec i2 0); [lra|]. cbn [andb orb] in Ey.
    destruct (Rleb_spec a 0); [lra|]. destruct (Rleb_spec b 0); [lra|]. destruct (Rleb_spec i1 0); [lra|]. destruct (Rleb_spec i2 0); [lra|]. cbn [orb] in Ey.
    destruct (Reqb_spec b a); [lra|]. destruct (Rleb_spec x 0); [lra|]. cbn [orb] in Ey. injection Ey as <-.
    replace (ln (x / a) / ln (b / a) * ln (i2 / i1)) with (ln (i2 / i1) / ln (b / a) * ln (x / a)) by (field; exact LN). exact Py. }
  assert (REST : forall kk : Z, (if (kk =? Z.of_nat (length (w_energies w)) - 1)%Z then (Z.of_nat (length (w_energies w)) - 2)%Z else kk) = Z.of_nat k ->
    exists v, (let k := if (kk =? Z.of_nat (length (w_energies w)) - 1)%Z then (Z.of_nat (length (w_energies w)) - 2)%Z else kk in
      if (k <? 0)%Z then UB else
      obind (vec_get (w_energies w) (Z.to_nat k)) (fun e1 => obind (vec_get (w_energies w) (Z.to_nat k + 1)) (fun e2 =>
      obind (vec_get (w_integrals w) (Z.to_nat k)) (fun j1 => obind (vec_get (w_integrals w) (Z.to_nat k + 1)) (fun j2 =>
      if (Rleb x 0 || Rleb e1 0 || Rleb e2 0 || Reqb e1 e2 || Rleb j1 0 || Rleb j2 0)%bool then UB else
      Ok (j1 * exp (ln (x / e1) / ln (e2 / e1) * ln (j2 / j1)))))))) = Ok v /\ on_power_law a i1 b i2 x v).
  { intros kk EK. cbv zeta. rewrite EK. destruct (Z.ltb_spec (Z.of_nat k) 0); [lia|]. rewrite Nat2Z.id, Nat.add_1_r.
    unfold vec_get. rewrite Ha, Hb, H1, H2. cbn [obind]. destruct (Rleb_spec x 0); [lra|]. destruct (Rleb_spec a 0); [lra|]. destruct (Rleb_spec b 0); [lra|].
    destruct (Reqb_spec a b); [lra|]. destruct (Rleb_spec i1 0); [lra|]. destruct (Rleb_spec i2 0); [lra|]. cbn [orb]. eexists. split; [reflexivity|exact PL]. }
  set (kk := if (Z.of_nat u - 1 <? 0)%Z then 0%Z else (Z.of_nat u - 1)%Z).
  assert (KK : kk = Z.of_nat k \/ (kk = Z.of_nat (length (w_energies w)) - 1 /\ Z.of_nat k = Z.of_nat (length (w_energies w)) - 2)%Z).
  { unfold kk. destruct (Z.ltb_spec (Z.of_nat (length (w_energies w)) - 2) (Z.of_nat u - 1)) as [Q|Q].
    - right. destruct (Z.ltb_spec (Z.of_nat (length (w_energies w)) - 2) 0); [lia|]. pose proof (ub_ok (w_energies w) x (ascending_nondecreasing _ HI)) as (u' & E' & Hu' & _).
      rewrite E in E'. injection E' as <-. destruct (Z.ltb_spec (Z.of_nat u - 1) 0); lia.
    - left. destruct (Z.ltb_spec (Z.of_nat u - 1) 0); lia. }
  assert (KL : (kk < Z.of_nat (length (w_energies w)))%Z /\ (0 <= kk)%Z) by lia.
  pose proof (nth_error_nth' (w_energies w) 0 (n := Z.to_nat kk) ltac:(lia)) as NK. unfold vec_at at 1. rewrite NK. cbn [obind].
  destruct (Reqb_spec x (nth (Z.to_nat kk) (w_energies w) 0)) as [XE|XE].
  - unfold vec_at. destruct KK as [->|(K1 & K2)].
    + rewrite Nat2Z.id in *. rewrite H1. eexists. split; [reflexivity|]. rewrite Na in XE. subst x.
      destruct PL as (n & g & A & B & C). exists n, g. auto.
    + assert (Z.to_nat kk = S k) as EKK by lia. rewrite EKK in *. rewrite H2. eexists. split; [reflexivity|]. rewrite Nb in XE. subst x.
      destruct PL as (n & g & A & B & C). exists n, g. auto.
  - apply REST. destruct KK as [->|(K1 & K2)].
    + destruct (Z.eqb_spec (Z.of_nat k) (Z.of_nat (length (w_energies w)) - 1)); lia.
    + rewrite K1. destruct (Z.eqb_spec (Z.of_nat (length (w_energies w)) - 1) (Z.of_nat (length (w_energies w)) - 1)); lia.
Qed.

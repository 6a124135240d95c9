(** C69: filling, integrating and rebinning a sky map. *)
From Coq Require Import Reals List Lia Lra ZArith.
From Verif Require Import Base AccumModel AccumProofs WrebModel WrebSpec WrebProofs.
Import ListNotations.
Local Open Scope R_scope.
Local Open Scope list_scope.

(** ** Filling *)

(** The pixels of a file are laid out with the columns running fastest; pixels
    that are missing are zero. *)
Theorem C69_fold : forall v n1 n2 n3, is_image (foldVector v n1 n2 n3) n1 n2 n3 (fun k j i => nth ((k * n2 + j) * n1 + i) v 0).
Proof. intros. apply fold_ok. Qed.

(** Counts turned into intensities are divided by the width of their energy bin
    and the solid angle of their pixel; turning them back gives the counts. *)
Theorem C69_roundtrip : forall data sas n1 n2 widths,
  length data = (length widths * n2 * n1)%nat -> length sas = (n2 * n1)%nat -> Forall (fun w => w <> 0) widths -> Forall (fun s => s <> 0) sas ->
  exists image, convertToDifferential (foldVector data n1 n2 (length widths)) widths (fillSolidAngles sas n1 n2 []) = Ok image /\
    is_image image n1 n2 (length widths) (fun k j i => nth ((k * n2 + j) * n1 + i) data 0 / (nth k widths 0 * nth (j * n1 + i) sas 0)) /\
    forall out, length out = length data -> convertToIntegral out image widths (fillSolidAngles sas n1 n2 []) = Ok data.
Proof.
  intros data sas n1 n2 widths HD HS HW HA.
  assert (PS : is_plane (fillSolidAngles sas n1 n2 []) n1 n2 (fun j i => nth (j * n1 + i) sas 0)) by apply take_plane_ok.
  assert (HW' : forall k, (k < length widths)%nat -> nth_error widths k = Some (nth k widths 0) /\ nth k widths 0 <> 0).
  { intros k Hk. split; [now apply nth_error_nth'|]. rewrite Forall_forall in HW. apply HW. now apply nth_In. }
  assert (HA' : forall j i, (j < n2)%nat -> (i < n1)%nat -> nth (j * n1 + i) sas 0 <> 0).
  { intros j i Hj Hi. rewrite Forall_forall in HA. apply HA. apply nth_In. nia. }
  destruct (differential_ok _ widths _ n1 n2 _ (fun k => nth k widths 0) _ (fold_ok data n1 n2 (length widths)) PS HW' HA') as (image & E & I).
  exists image. split; [exact E|]. split; [exact I|]. intros out HO.
  destruct (integral_ok out image widths _ n1 n2 _ (fun k => nth k widths 0) _ (fun p => nth p data 0) I PS (fun k Hk => proj1 (HW' k Hk)) ltac:(lia)) as (out' & E' & L' & A').
  { intros k j i Hk Hj Hi. cbn beta. field. split; [now apply HA'|now apply HW']. }
  rewrite E'. f_equal. apply (nth_ext _ _ 0 0); [lia|]. intros p Hp. apply A'. lia.
Qed.

(** Refuted when a pixel lies off the sky, so that its solid angle is zero: the
    intensity is not a number. *)
Theorem C69_roundtrip_refuted : forall data n1 n2 widths sas w0, (0 < n1)%nat -> (0 < n2)%nat -> nth_error widths 0 = Some w0 -> nth_error sas 0 = Some 0 ->
  convertToDifferential (foldVector data n1 n2 (length widths)) widths (fillSolidAngles sas n1 n2 []) = UB.
Proof.
  intros data n1 n2 widths sas w0 H1 H2 HW HS. unfold convertToDifferential. destruct widths as [|w widths]; [discriminate|]. cbn [length]. rewrite <- cons_seq. cbn [mfold].
  destruct (fold_ok data n1 n2 (S (length widths))) as (_ & HI). destruct (HI 0%nat ltac:(lia)) as (plane & P1 & LP & HP). destruct (HP 0%nat H2) as (row & R1 & R2 & R3).
  unfold vec_get at 1 2. rewrite P1. cbn [obind nth_error]. destruct (Reqb_spec w 0) as [|NW]; [reflexivity|].
  destruct (take_plane_ok n2 n1 sas) as ((LS & HS') & _). destruct (HS' 0%nat H2) as (sa & S1 & S2 & S3). unfold fillSolidAngles. cbn [app]. rewrite LS. destruct n2 as [|m]; [lia|]. rewrite <- cons_seq. cbn [mfold].
  unfold vec_get at 1 2. rewrite S1. cbn [obind]. rewrite R1. cbn [obind].
  assert (diff_row (1 / w) sa row = UB) as ->; [|reflexivity]. unfold diff_row. destruct row as [|x row]; [simpl in R2; lia|]. cbn [length]. rewrite <- cons_seq. cbn [mfold]. rewrite (vec_get_ok (x :: row) 0 0) by (simpl; lia). cbn [obind]. unfold vec_get. rewrite (S3 0%nat H1). cbn [obind].
  rewrite (nth_some sas _ 0) by exact HS. destruct (Reqb_spec 0 0); [reflexivity|contradiction].
Qed.

(** ** Integrals *)

Section Sky.
  Variable sky : R * R -> R * R -> nat -> nat -> R.

  (** A map read from a file carries the sum over its pixels of value times
      solid angle for each energy, and the integral over energies by the
      trapezoidal rule in the logarithm (for one energy, the sum itself). *)
  Theorem C69_integrals : forall data n1 n2 crpix cdelt periodic energies, energies <> [] ->
    exists w, from_pixels sky data n1 n2 crpix cdelt periodic energies = Ok w /\
      is_image (r_image w) n1 n2 (length energies) (fun k j i => nth ((k * n2 + j) * n1 + i) data 0) /\
      length (r_values w) = length energies /\
      (forall k, (k < length energies)%nat ->
         nth_error (r_values w) k = Some (sum2 (fun i j => sky crpix cdelt (i + 1)%nat (j + 1)%nat * nth ((k * n2 + j) * n1 + i) data 0) n1 n2)) /\
      (length energies = 1%nat -> nth_error (r_values w) 0 = Some (r_total w)) /\
      (length energies <> 1%nat -> r_total w = log_trapezoid (fun k => nth k energies 0) (fun k => nth k (r_values w) 0) (length energies)).
  Proof.
    intros data n1 n2 crpix cdelt periodic energies NE. unfold from_pixels.
    set (w0 := mkRmap (foldVector data n1 n2 (length energies)) [] n1 n2 crpix cdelt periodic energies [] 0).
    destruct (integrals_ok sky w0 _ (fun i j => sky crpix cdelt (i + 1)%nat (j + 1)%nat) (fold_ok data n1 n2 (length energies)) NE) as (values & total & E & LV & NV & T).
    { intros i j Hi Hj. now apply (sky_table sky w0). }
    cbn [w0 r_image r_sa r_n1 r_n2 r_crpix r_cdelt r_periodic r_energies] in *. eexists. split; [exact E|]. cbn [r_image r_values r_total].
    split; [apply fold_ok|]. split; [exact LV|]. split; [exact NV|]. split.
    - intros L1. rewrite L1 in T. simpl in T. rewrite T. apply nth_error_nth'. lia.
    - intros L1. destruct (Nat.eqb_spec (length energies) 1); [contradiction|exact T].
  Qed.

  (** A map between two levels has integrals between these levels times its
      solid angle. *)
  Theorem C69_integral_bounds : forall data n1 n2 crpix cdelt periodic energies w lo hi k v,
    from_pixels sky data n1 n2 crpix cdelt periodic energies = Ok w -> energies <> [] -> length data = (length energies * n2 * n1)%nat ->
    Forall (fun x => lo <= x <= hi) data -> (forall x y, 0 <= sky crpix cdelt x y) -> nth_error (r_values w) k = Some v ->
    lo * sum2 (fun i j => sky crpix cdelt (i + 1)%nat (j + 1)%nat) n1 n2 <= v <= hi * sum2 (fun i j => sky crpix cdelt (i + 1)%nat (j + 1)%nat) n1 n2.
  Proof.
    intros data n1 n2 crpix cdelt periodic energies w lo hi k v E NE HD HF HS HV.
    destruct (C69_integrals data n1 n2 crpix cdelt periodic energies NE) as (w' & E' & _ & LV & NV & _). rewrite E in E'. injection E' as <-.
    assert (Hk : (k < length energies)%nat) by (rewrite <- LV; apply nth_error_Some; congruence). rewrite NV in HV by exact Hk. injection HV as <-.
    rewrite <- !sum2_scal. split; apply sum2_le; intros i j Hi Hj; assert ((k * n2 + j) * n1 + i < length data)%nat as HI by (rewrite HD; assert (k * n2 + j + 1 <= length energies * n2)%nat by nia; nia); rewrite Forall_forall in HF; pose proof (HF _ (nth_In data 0 HI)); pose proof (HS (i + 1)%nat (j + 1)%nat); nra.
  Qed.

  (** Refuted for a map made from a counts map: its solid angles are kept row by
      row but read column by column.  Unless the map is square, elements beyond
      their rows are read ... *)
  Lemma plane_integral_UB sas plane n1 n2 P : is_plane plane n1 n2 P -> n1 <> n2 -> (0 < n1)%nat -> (0 < n2)%nat ->
    plane_integral (fst (take_plane n2 n1 sas)) plane n1 n2 = UB.
  Proof.
    intros HP NE H1 H2. set (S := fun a b => nth (a * n1 + b) sas 0). destruct (take_plane_ok n2 n1 sas) as (HS & _). fold S in HS.
    set (sa := fst (take_plane n2 n1 sas)) in *.
    assert (IN : forall j acc n, (j < n2)%nat -> (j < n1)%nat -> (n <= n1)%nat -> (n <= n2)%nat ->
      exists acc', mfold (fun acc i => obind (get2 sa i j) (fun s => obind (get2 plane j i) (fun v => Ok (acc + s * v)))) (seq 0 n) acc = Ok acc').
    { intros j acc n Hj Hj' . induction n as [|n IH]; intros Hn Hn'; [now exists acc|]. destruct (IH ltac:(lia) ltac:(lia)) as (a & E). rewrite (mfold_seq_S _ _ _ _ E).
      rewrite (get2_ok sa n1 n2 S n j HS) by lia. cbn [obind]. rewrite (get2_ok plane n1 n2 P j n HP) by lia. cbn [obind]. eexists. reflexivity. }
    unfold plane_integral. destruct (lt_dec n2 n1) as [L|L].
    - (* the first row runs over the end of the table *)
      destruct n2 as [|m]; [lia|]. rewrite <- cons_seq. cbn [mfold]. set (m' := Datatypes.S m) in *.
      replace n1 with (m' + (Datatypes.S (n1 - m' - 1)))%nat at 1 by lia. rewrite seq_app, mfold_app. destruct (IN 0%nat 0 m' ltac:(lia) ltac:(lia) ltac:(lia) ltac:(lia)) as (a & E). rewrite E. cbn [obind]. rewrite <- cons_seq. cbn [mfold]. rewrite Nat.add_0_l.
      unfold get2 at 1. unfold vec_get at 1. destruct HS as (LS & _). rewrite (proj2 (nth_error_None sa m')) by lia. reflexivity.
    - (* the row beyond the last column *)
      assert (OUT : forall n, (n <= n1)%nat -> exists acc', mfold (fun acc j => mfold (fun acc i => obind (get2 sa i j) (fun s => obind (get2 plane j i) (fun v => Ok (acc + s * v)))) (seq 0 n1) acc) (seq 0 n) 0 = Ok acc').
      { induction n as [|n IH]; intros Hn; [now exists 0|]. destruct (IH ltac:(lia)) as (a & E). rewrite (mfold_seq_S _ _ _ _ E). apply IN; lia. }
      destruct (OUT n1 ltac:(lia)) as (a & E). replace n2 with (n1 + (Datatypes.S (n2 - n1 - 1)))%nat by lia. rewrite seq_app, mfold_app, E. cbn [obind]. rewrite <- cons_seq. cbn [mfold]. rewrite Nat.add_0_l.
      destruct n1 as [|m]; [lia|]. rewrite <- cons_seq. cbn [mfold]. set (m' := Datatypes.S m) in *. unfold get2 at 1. destruct HS as (LS & HS). destruct (HS 0%nat H2) as (row & R1 & R2 & _). unfold vec_get at 1. rewrite R1. cbn [obind]. unfold vec_get at 1. rewrite (proj2 (nth_error_None row m')) by lia. reflexivity.
  Qed.

  Theorem C69_oblong_refuted : forall data sas n1 n2 crpix cdelt periodic energies, n1 <> n2 -> (0 < n1)%nat -> (0 < n2)%nat -> energies <> [] ->
    from_counts sky data sas n1 n2 crpix cdelt periodic energies None = UB.
  Proof.
    intros data sas n1 n2 crpix cdelt periodic energies NE H1 H2 HE. unfold from_counts. cbn [obind]. unfold computeMapIntegrals. cbn [r_image r_n1 r_n2 r_energies].
    assert (solidAngles sky (mkRmap (foldVector data n1 n2 (length energies)) (fillSolidAngles sas n1 n2 []) n1 n2 crpix cdelt periodic energies [] 0) = fst (take_plane n2 n1 sas)) as ->.
    { unfold solidAngles, fillSolidAngles. cbn [r_sa app]. destruct (take_plane_ok n2 n1 sas) as ((LS & _) & _). destruct (fst (take_plane n2 n1 sas)); [simpl in LS; lia|reflexivity]. }
    destruct energies as [|e energies]; [congruence|]. cbn [length]. rewrite <- cons_seq. cbn [mfold].
    destruct (fold_ok data n1 n2 (S (length energies))) as (_ & HI). destruct (HI 0%nat ltac:(lia)) as (plane & P1 & P2). unfold vec_get at 1. rewrite P1. cbn [obind]. rewrite (plane_integral_UB sas plane n1 n2 _ P2 NE H1 H2). reflexivity.
  Qed.

  (** ... and in a square map every pixel is weighed with the solid angle of its
      mirror image about the diagonal. *)
  Theorem C69_mirrored_refuted : forall data sas n crpix cdelt periodic energies, (0 < n)%nat -> energies <> [] ->
    exists w, from_counts sky data sas n n crpix cdelt periodic energies None = Ok w /\
      forall k, (k < length energies)%nat -> nth_error (r_values w) k = Some (sum2 (fun i j => nth (i * n + j) sas 0 * nth ((k * n + j) * n + i) data 0) n n).
  Proof.
    intros data sas n crpix cdelt periodic energies Hn NE. unfold from_counts. cbn [obind].
    set (w0 := mkRmap (foldVector data n n (length energies)) (fillSolidAngles sas n n []) n n crpix cdelt periodic energies [] 0).
    destruct (integrals_ok sky w0 _ (fun i j => nth (i * n + j) sas 0) (fold_ok data n n (length energies)) NE) as (values & total & E & LV & NV & T).
    { intros i j Hi Hj. cbn [w0 r_n1 r_n2] in *. destruct (take_plane_ok n n sas) as (HP & _). unfold solidAngles. cbn [w0 r_sa]. unfold fillSolidAngles. cbn [app].
      assert (NN : fst (take_plane n n sas) <> []) by (destruct HP as (L & _); intros Z; rewrite Z in L; simpl in L; lia).
      destruct (fst (take_plane n n sas)) eqn:EP; [congruence|]. now apply (get2_ok _ n n _ i j HP). }
    cbn [w0 r_image r_sa r_n1 r_n2 r_crpix r_cdelt r_periodic r_energies] in *. eexists. split; [exact E|]. exact NV.
  Qed.

  (** ** Rebinning *)

  (** [w] is a map whose pixels and table of solid angles are as described. *)
  Definition described (w : rmap) (pix : nat -> nat -> nat -> R) (S : nat -> nat -> R) : Prop :=
    is_image (r_image w) (r_n1 w) (r_n2 w) (length (r_energies w)) pix /\ r_energies w <> [] /\
    (r_sa w = [] /\ (forall i j, S i j = sky (r_crpix w) (r_cdelt w) (i + 1)%nat (j + 1)%nat) \/
     (0 < r_n1 w)%nat /\ is_plane (r_sa w) (r_n2 w) (r_n1 w) S).

  Lemma described_table w pix S : described w pix S -> forall i j, (i < r_n1 w)%nat -> (j < r_n2 w)%nat -> get2 (solidAngles sky w) i j = Ok (S i j).
  Proof.
    intros (_ & _ & [(H & HS)|(H & HP)]) i j Hi Hj; [rewrite HS; now apply sky_table|]. unfold solidAngles. destruct (r_sa w) eqn:ES; [destruct HP as (L & _); simpl in L; lia|]. rewrite <- ES in *. now apply (get2_ok _ (r_n2 w) (r_n1 w)).
  Qed.

  Lemma described_energies w pix S : described w pix S -> r_energies w <> [].
  Proof. now intros (_ & H & _). Qed.

  (** The number of blocks: as many as are needed, and no more. *)
  Lemma rebin_ok w f avg pix S : (0 < f)%nat -> described w pix S ->
    (avg = true -> forall a b, (a < blocks (r_n1 w) f)%nat -> (b < blocks (r_n2 w) f)%nat -> block_sum f (r_n1 w) (r_n2 w) S a b <> 0) ->
    exists w', rebin sky w f avg = Ok w' /\ r_n1 w' = blocks (r_n1 w) f /\ r_n2 w' = blocks (r_n2 w) f /\ r_energies w' = r_energies w /\ r_periodic w' = r_periodic w /\
      r_cdelt w' = (fst (r_cdelt w) * INR f, snd (r_cdelt w) * INR f) /\ r_crpix w' = ((fst (r_crpix w) - 1 / 2) / INR f + 1 / 2, (snd (r_crpix w) - 1 / 2) / INR f + 1 / 2) /\
      (let P := fun k b a => if avg then block_sum f (r_n1 w) (r_n2 w) (fun i j => pix k j i * S i j) a b / block_sum f (r_n1 w) (r_n2 w) S a b else block_sum f (r_n1 w) (r_n2 w) (fun i j => pix k j i) a b in
       is_image (r_image w') (r_n1 w') (r_n2 w') (length (r_energies w)) P /\
       forall k, (k < length (r_energies w))%nat -> nth_error (r_values w') k = Some (sum2 (fun a b => sky (r_crpix w') (r_cdelt w') (a + 1)%nat (b + 1)%nat * P k b a) (r_n1 w') (r_n2 w'))).
  Proof.
    intros Hf HD NZ. pose proof HD as (HI & NE & _). destruct (rebin_image sky w f avg pix S Hf HI (described_table w pix S HD) NZ) as (image' & E & I).
    match type of E with _ = computeMapIntegrals _ ?w1 => destruct (integrals_ok sky w1 _ (fun a b => sky (r_crpix w1) (r_cdelt w1) (a + 1)%nat (b + 1)%nat) I NE) as (values & total & E2 & LV & NV & _) end.
    { intros i j Hi Hj. now apply sky_table. }
    cbn [r_image r_sa r_n1 r_n2 r_crpix r_cdelt r_periodic r_energies] in E2, LV, NV. rewrite E2 in E. eexists. split; [exact E|]. cbn [r_image r_sa r_n1 r_n2 r_crpix r_cdelt r_periodic r_energies r_values].
    repeat (split; [reflexivity|]). split; [exact I|exact NV].
  Qed.

  (** Rebinning by summing: every pixel of the new map is the sum of a block of
      pixels, there are just as many blocks as needed, every plane keeps its sum,
      and the integrals are recomputed with the new solid angles. *)
  Theorem C69_rebin_sum : forall w f pix S, (0 < f)%nat -> described w pix S ->
    exists w', rebin sky w f false = Ok w' /\
      (r_n1 w <= r_n1 w' * f < r_n1 w + f)%nat /\ (r_n2 w <= r_n2 w' * f < r_n2 w + f)%nat /\ r_energies w' = r_energies w /\
      is_image (r_image w') (r_n1 w') (r_n2 w') (length (r_energies w)) (fun k b a => block_sum f (r_n1 w) (r_n2 w) (fun i j => pix k j i) a b) /\
      (forall k, (k < length (r_energies w))%nat -> sum2 (fun a b => block_sum f (r_n1 w) (r_n2 w) (fun i j => pix k j i) a b) (r_n1 w') (r_n2 w') = sum2 (fun i j => pix k j i) (r_n1 w) (r_n2 w)) /\
      forall k, (k < length (r_energies w))%nat ->
        nth_error (r_values w') k = Some (sum2 (fun a b => sky (r_crpix w') (r_cdelt w') (a + 1)%nat (b + 1)%nat * block_sum f (r_n1 w) (r_n2 w) (fun i j => pix k j i) a b) (r_n1 w') (r_n2 w')).
  Proof.
    intros w f pix S Hf HD. destruct (rebin_ok w f false pix S Hf HD ltac:(discriminate)) as (w' & E & N1 & N2 & EN & _ & _ & _ & I & V). exists w'. cbv zeta in I, V.
    pose proof (blocks_ok (r_n1 w) f Hf). pose proof (blocks_ok (r_n2 w) f Hf). split; [exact E|]. rewrite N1, N2. split; [lia|]. split; [lia|]. split; [exact EN|]. split; [rewrite <- N1, <- N2; exact I|]. split.
    - intros k Hk. apply sum2_blocks; intros; now apply block_lt.
    - intros k Hk. rewrite <- N1, <- N2. now apply V.
  Qed.

  (** Rebinning by averaging: every pixel is the mean of its block weighed by
      the solid angles.  It lies between the smallest and the largest value of
      the plane, and the block's solid angle times its mean is conserved. *)
  Theorem C69_rebin_mean : forall w f pix S, (0 < f)%nat -> described w pix S -> (forall i j, (i < r_n1 w)%nat -> (j < r_n2 w)%nat -> 0 < S i j) ->
    exists w' mean, rebin sky w f true = Ok w' /\
      (r_n1 w <= r_n1 w' * f < r_n1 w + f)%nat /\ (r_n2 w <= r_n2 w' * f < r_n2 w + f)%nat /\ r_energies w' = r_energies w /\
      is_image (r_image w') (r_n1 w') (r_n2 w') (length (r_energies w)) mean /\
      (forall k a b, (k < length (r_energies w))%nat -> (a < r_n1 w')%nat -> (b < r_n2 w')%nat ->
         mean k b a * block_sum f (r_n1 w) (r_n2 w) S a b = block_sum f (r_n1 w) (r_n2 w) (fun i j => pix k j i * S i j) a b) /\
      (forall k, (k < length (r_energies w))%nat ->
         sum2 (fun a b => block_sum f (r_n1 w) (r_n2 w) S a b * mean k b a) (r_n1 w') (r_n2 w') = sum2 (fun i j => S i j * pix k j i) (r_n1 w) (r_n2 w)) /\
      (forall k lo hi, (k < length (r_energies w))%nat -> (forall i j, (i < r_n1 w)%nat -> (j < r_n2 w)%nat -> lo <= pix k j i <= hi) ->
         forall a b, (a < r_n1 w')%nat -> (b < r_n2 w')%nat -> lo <= mean k b a <= hi) /\
      forall k, (k < length (r_energies w))%nat ->
        nth_error (r_values w') k = Some (sum2 (fun a b => sky (r_crpix w') (r_cdelt w') (a + 1)%nat (b + 1)%nat * mean k b a) (r_n1 w') (r_n2 w')).
  Proof.
    intros w f pix S Hf HD HS.
    assert (POS : forall a b, (a < blocks (r_n1 w) f)%nat -> (b < blocks (r_n2 w) f)%nat -> 0 < block_sum f (r_n1 w) (r_n2 w) S a b).
    { intros a b Ha Hb. pose proof (blocks_ok (r_n1 w) f Hf) as B1. pose proof (blocks_ok (r_n2 w) f Hf) as B2.
      assert (A1 : (a * f < r_n1 w)%nat) by nia. assert (A2 : (b * f < r_n2 w)%nat) by nia.
      apply Rlt_le_trans with (sum2 (fun i j => if ((i =? a * f) && (j =? b * f))%nat%bool then S (a * f)%nat (b * f)%nat else 0) (r_n1 w) (r_n2 w)).
      - unfold sum2. rewrite (sumn_ext _ (fun i => if (a * f =? i)%nat then S (a * f)%nat (b * f)%nat else 0)).
        + rewrite sumn_pick by exact A1. now apply HS.
        + intros i Hi. rewrite (Nat.eqb_sym i). destruct (a * f =? i)%nat; cbn [andb]; [|apply sumn_zero].
          rewrite (sumn_ext _ (fun j => if (b * f =? j)%nat then S (a * f)%nat (b * f)%nat else 0)) by (intros j _; now rewrite Nat.eqb_sym). now apply sumn_pick.
      - unfold block_sum. apply sum2_le. intros i j Hi Hj. destruct (Nat.eqb_spec i (a * f)) as [->|]; destruct (Nat.eqb_spec j (b * f)) as [->|]; cbn [andb].
        + rewrite !Nat.div_mul by lia. rewrite !Nat.eqb_refl. cbn [andb]. lra.
        + destruct (_ && _)%bool; [|lra]. left. now apply HS.
        + destruct (_ && _)%bool; [|lra]. left. now apply HS.
        + destruct (_ && _)%bool; [|lra]. left. now apply HS. }
    destruct (rebin_ok w f true pix S Hf HD) as (w' & E & N1 & N2 & EN & _ & _ & _ & I & V). { intros _ a b Ha Hb. pose proof (POS a b Ha Hb). lra. }
    cbv zeta in I, V. pose proof (blocks_ok (r_n1 w) f Hf). pose proof (blocks_ok (r_n2 w) f Hf).
    exists w', (fun k b a => block_sum f (r_n1 w) (r_n2 w) (fun i j => pix k j i * S i j) a b / block_sum f (r_n1 w) (r_n2 w) S a b). cbv beta.
    split; [exact E|]. rewrite N1, N2. split; [lia|]. split; [lia|]. split; [exact EN|]. split; [rewrite <- N1, <- N2; exact I|]. split; [|split; [|split]].
    - intros k a b Hk Ha Hb. pose proof (POS a b Ha Hb). field. lra.
    - intros k Hk. rewrite (sum2_ext _ (fun a b => block_sum f (r_n1 w) (r_n2 w) (fun i j => S i j * pix k j i) a b)).
      + apply sum2_blocks; intros; now apply block_lt.
      + intros a b Ha Hb. pose proof (POS a b Ha Hb). assert (block_sum f (r_n1 w) (r_n2 w) (fun i j => pix k j i * S i j) a b = block_sum f (r_n1 w) (r_n2 w) (fun i j => S i j * pix k j i) a b) as -> by (unfold block_sum; apply sum2_ext; intros i j _ _; destruct (_ && _)%bool; [ring|reflexivity]). field. lra.
    - intros k lo hi Hk HB a b Ha Hb. pose proof (POS a b Ha Hb) as P0. set (s := block_sum f (r_n1 w) (r_n2 w) S a b) in *.
      assert (LO : lo * s <= block_sum f (r_n1 w) (r_n2 w) (fun i j => pix k j i * S i j) a b).
      { unfold s, block_sum. rewrite <- sum2_scal. apply sum2_le. intros i j Hi Hj. destruct (_ && _)%bool; [|lra]. pose proof (HB i j Hi Hj). pose proof (HS i j Hi Hj). nra. }
      assert (HI2 : block_sum f (r_n1 w) (r_n2 w) (fun i j => pix k j i * S i j) a b <= hi * s).
      { unfold s, block_sum. rewrite <- sum2_scal. apply sum2_le. intros i j Hi Hj. destruct (_ && _)%bool; [|lra]. pose proof (HB i j Hi Hj). pose proof (HS i j Hi Hj). nra. }
      split; [apply Rmult_le_reg_r with s; [exact P0|]|apply Rmult_le_reg_r with s; [exact P0|]]; (replace (block_sum f (r_n1 w) (r_n2 w) (fun i j => pix k j i * S i j) a b / s * s) with (block_sum f (r_n1 w) (r_n2 w) (fun i j => pix k j i * S i j) a b) by (field; lra)); assumption.
    - intros k Hk. rewrite <- N1, <- N2. now apply V.
  Qed.

  (** Refuted for maps with pixels off the sky, such as all-sky maps in the
      Aitoff projection: a block of pixels without solid angle gets a value that
      is not a number. *)
  Theorem C69_rebin_hole_refuted : forall w f pix S a b, (0 < f)%nat -> described w pix S -> (a * f < r_n1 w)%nat -> (b * f < r_n2 w)%nat ->
    (forall i j, (i < r_n1 w)%nat -> (j < r_n2 w)%nat -> (i / f = a)%nat -> (j / f = b)%nat -> S i j = 0) -> rebin sky w f true = UB.
  Proof.
    intros w f pix S a b Hf HD Ha Hb HZ. pose proof HD as ((LI & HI) & NE & _). pose proof (described_table w pix S HD) as HS. unfold rebin. destruct (Nat.eqb_spec f 0); [lia|]. cbv zeta.
    set (N1 := blocks (r_n1 w) f) in *. set (N2 := blocks (r_n2 w) f) in *. set (sa := solidAngles sky w) in *.
    assert (B1 : forall i, (i < r_n1 w)%nat -> (i / f < N1)%nat) by (intros; now apply block_lt). assert (B2 : forall j, (j < r_n2 w)%nat -> (j / f < N2)%nat) by (intros; now apply block_lt).
    assert (HA : (a < N1)%nat) by (pose proof (B1 _ Ha) as Q; rewrite Nat.div_mul in Q by lia; exact Q). assert (HB : (b < N2)%nat) by (pose proof (B2 _ Hb) as Q; rewrite Nat.div_mul in Q by lia; exact Q).
    destruct (gather_ok (r_n1 w) (r_n2 w) f (fun i j => get2 sa i j) S N1 N2 (zeros N1 N2) _ (zeros_plane N1 N2) B1 B2 HS) as (sums & ES & PS). rewrite ES. cbn [obind].
    destruct (r_energies w) as [|e0 es] eqn:EE; [congruence|]. cbn [length]. rewrite <- cons_seq. cbn [mfold]. destruct (HI 0%nat ltac:(simpl; lia)) as (plane & P1 & P2). unfold vec_get at 1. rewrite P1. cbn [obind].
    destruct (gather_ok (r_n1 w) (r_n2 w) f (fun i j => obind (get2 plane j i) (fun v => obind (get2 sa i j) (fun s => Ok (v * s)))) (fun i j => pix 0%nat j i * S i j) N1 N2 (zeros N1 N2) _ (zeros_plane N1 N2) B1 B2) as (t & E & P).
    { intros i j Hi Hj. rewrite (get2_ok plane _ _ _ j i P2 Hj Hi). cbn [obind]. rewrite HS by assumption. reflexivity. }
    rewrite E. cbn [obind].
    rewrite (divide_fails N1 N2 t _ (fun jj ii => get2 sums jj ii) (fun b a => 0 + block_sum f (r_n1 w) (r_n2 w) S a b) a b P); [reflexivity| |exact HA|exact HB|].
    - intros a' b' Ha' Hb'. apply (get2_ok sums N1 N2 _ b' a' PS Hb' Ha').
    - unfold block_sum. rewrite (sum2_ext _ (fun _ _ => 0)); [rewrite sum2_zero; ring|]. intros i j Hi Hj. destruct (Nat.eqb_spec (i / f) a); [|reflexivity]. destruct (Nat.eqb_spec (j / f) b); [|reflexivity]. cbn [andb]. now apply HZ.
  Qed.

  (** A factor of zero divides by zero; a factor of one changes no pixel. *)
  Theorem C69_factor_zero_refuted : forall w avg, rebin sky w 0 avg = UB.
  Proof. reflexivity. Qed.

  Theorem C69_factor_one : forall w pix S, described w pix S ->
    exists w', rebin sky w 1 false = Ok w' /\ r_n1 w' = r_n1 w /\ r_n2 w' = r_n2 w /\ r_crpix w' = r_crpix w /\ r_cdelt w' = r_cdelt w /\
      is_image (r_image w') (r_n1 w) (r_n2 w) (length (r_energies w)) pix.
  Proof.
    intros w pix S HD. destruct (rebin_ok w 1 false pix S ltac:(lia) HD ltac:(discriminate)) as (w' & E & N1 & N2 & _ & _ & CD & CR & I & _). cbv zeta in I. exists w'. split; [exact E|].
    pose proof (blocks_ok (r_n1 w) 1 ltac:(lia)). pose proof (blocks_ok (r_n2 w) 1 ltac:(lia)). assert (M1 : blocks (r_n1 w) 1 = r_n1 w) by lia. assert (M2 : blocks (r_n2 w) 1 = r_n2 w) by lia. rewrite M1 in N1. rewrite M2 in N2.
    split; [exact N1|]. split; [exact N2|]. split; [rewrite CR; destruct (r_crpix w); cbn [fst snd]; simpl; f_equal; field|]. split; [rewrite CD; destruct (r_cdelt w); cbn [fst snd]; simpl; f_equal; ring|].
    rewrite N1, N2 in I. destruct I as (L & I). split; [exact L|]. intros k Hk. destruct (I k Hk) as (p & P1 & P2). exists p. split; [exact P1|]. eapply is_plane_ext; [exact P2|]. intros b a Hb Ha. cbn beta. unfold block_sum, sum2.
    rewrite (sumn_ext _ (fun i => if (a =? i)%nat then pix k b a else 0)); [now apply sumn_pick|]. intros i Hi. rewrite Nat.div_1_r, (Nat.eqb_sym i). destruct (Nat.eqb_spec a i) as [<-|]; cbn [andb]; [|apply sumn_zero].
    rewrite (sumn_ext _ (fun j => if (b =? j)%nat then pix k b a else 0)); [now apply sumn_pick|]. intros j Hj. rewrite Nat.div_1_r, (Nat.eqb_sym j). destruct (Nat.eqb_spec b j) as [<-|]; reflexivity.
  Qed.

  (** The new pixels lie where the old ones did: the point of the old map with
      pixel coordinates (x, y), counted such that the first pixel reaches from
      1/2 to 3/2, is as far from the reference point as the point of the new map
      that is the same fraction of blocks away from the edge. *)
  Theorem C69_geometry : forall w f pix S x y w', (0 < f)%nat -> described w pix S -> rebin sky w f false = Ok w' ->
    (x - fst (r_crpix w)) * fst (r_cdelt w) = ((x - 1 / 2) / INR f + 1 / 2 - fst (r_crpix w')) * fst (r_cdelt w') /\
    (y - snd (r_crpix w)) * snd (r_cdelt w) = ((y - 1 / 2) / INR f + 1 / 2 - snd (r_crpix w')) * snd (r_cdelt w').
  Proof.
    intros w f pix S x y w' Hf HD HR. destruct (rebin_ok w f false pix S Hf HD ltac:(discriminate)) as (w'' & E & _ & _ & _ & _ & CD & CR & _). rewrite HR in E. injection E as <-. rewrite CD, CR. cbn [fst snd].
    assert (INR f <> 0) by (apply not_0_INR; lia). split; field; assumption.
  Qed.

  (** Refuted: a map around the sky keeps wrapping around after rebinning, though
      its padded columns go beyond the full circle unless the factor divides
      their number. *)
  Theorem C69_periodic_refuted : forall w f pix S w', (0 < f)%nat -> described w pix S -> rebin sky w f false = Ok w' ->
    r_periodic w' = r_periodic w /\
    (INR (r_n1 w) * Rabs (fst (r_cdelt w)) = 360 -> r_n1 w mod f <> 0%nat -> 360 < INR (r_n1 w') * Rabs (fst (r_cdelt w'))).
  Proof.
    intros w f pix S w' Hf HD HR. destruct (rebin_ok w f false pix S Hf HD ltac:(discriminate)) as (w'' & E & N1 & _ & _ & PE & CD & _ & _). rewrite HR in E. injection E as <-. split; [exact PE|]. intros HC HM. rewrite CD, N1. cbn [fst].
    pose proof (blocks_ok (r_n1 w) f Hf) as (B & _). assert (r_n1 w < blocks (r_n1 w) f * f)%nat as LT.
    { destruct (Nat.eq_dec (r_n1 w) (blocks (r_n1 w) f * f)) as [Q|Q]; [|lia]. exfalso. apply HM. rewrite Q. apply Nat.mod_mul. lia. }
    rewrite Rabs_mult, (Rabs_right (INR f)) by (apply Rle_ge, pos_INR). apply lt_INR in LT. rewrite mult_INR in LT. pose proof (pos_INR (r_n1 w)). assert (0 < Rabs (fst (r_cdelt w))). { pose proof (Rabs_pos (fst (r_cdelt w))). destruct H0 as [|Z]; [assumption|]. rewrite <- Z in HC. lra. }
    rewrite <- HC. replace (INR (blocks (r_n1 w) f) * (Rabs (fst (r_cdelt w)) * INR f)) with (INR (blocks (r_n1 w) f) * INR f * Rabs (fst (r_cdelt w))) by ring. now apply Rmult_lt_compat_r.
  Qed.
End Sky.

(** ** Negative pixels, extremes and corners *)

(** A plane is refused when, and only when, one of its pixels is negative. *)
Theorem C69_negative : forall plane, (check_negative_pixels plane = Throw <-> exists j row i v, nth_error plane j = Some row /\ nth_error row i = Some v /\ v < 0) /\
  (check_negative_pixels plane = Ok tt <-> forall j row i v, nth_error plane j = Some row -> nth_error row i = Some v -> 0 <= v).
Proof.
  intros plane. unfold check_negative_pixels. set (q := fun row => existsb (fun v => Rltb v 0) row).
  assert (Q : existsb q plane = true <-> exists j row i v, nth_error plane j = Some row /\ nth_error row i = Some v /\ v < 0).
  { rewrite existsb_exists. split.
    - intros (row & I1 & I2). unfold q in I2. apply existsb_exists in I2. destruct I2 as (v & I2 & LT). destruct (Rltb_spec v 0) as [V|]; [|discriminate]. apply In_nth_error in I1. apply In_nth_error in I2. destruct I1 as (j & I1). destruct I2 as (i & I2). now exists j, row, i, v.
    - intros (j & row & i & v & A & B & C). exists row. split; [eapply nth_error_In; exact A|]. unfold q. apply existsb_exists. exists v. split; [eapply nth_error_In; exact B|]. destruct (Rltb_spec v 0); [reflexivity|contradiction]. }
  destruct (existsb q plane).
  - split; [split; [intros _; now apply Q|reflexivity]|]. split; [discriminate|]. intros H. destruct (proj1 Q eq_refl) as (j & row & i & v & A & B & C). specialize (H j row i v A B). lra.
  - split; [split; [discriminate|intros H; apply Q in H; discriminate]|]. split; [|reflexivity]. intros _ j row i v A B. destruct (Rle_dec 0 v) as [|N]; [assumption|]. assert (false = true) by (apply Q; exists j, row, i, v; repeat split; try assumption; lra). discriminate.
Qed.

(** The pixels reported as closest to and farthest from a direction are pixels
    at the border, and no pixel at the border is closer or farther. *)
Theorem C69_extremes : forall {Dir : Type} (dirs : nat -> nat -> Dir) (dist : Dir -> R) n1 n2, (0 < n1)%nat -> (0 < n2)%nat ->
  (exists x y, border n1 n2 x y /\ fst (minMaxDistPixels dirs dist n1 n2) = dirs x y) /\
  (exists x y, border n1 n2 x y /\ snd (minMaxDistPixels dirs dist n1 n2) = dirs x y) /\
  forall x y, border n1 n2 x y -> dist (fst (minMaxDistPixels dirs dist n1 n2)) <= dist (dirs x y) <= dist (snd (minMaxDistPixels dirs dist n1 n2)).
Proof.
  intros Dir dirs dist n1 n2 H1 H2. unfold minMaxDistPixels.
  set (s0 := mkExt (dirs 1%nat 1%nat) (dist (dirs 1%nat 1%nat)) (dirs 1%nat 1%nat) (dist (dirs 1%nat 1%nat))).
  assert (C0 : covers dist s0 (fun d => d = dirs 1%nat 1%nat)). { unfold covers, s0; cbn. repeat split; try reflexivity; subst; lra. }
  pose proof (loop_covers dist (fun i => dirs i 1%nat) (seq 2 (n1 - 1)) _ _ C0) as C1.
  pose proof (loop_covers dist (fun j => dirs n1 j) (seq 2 (n2 - 1)) _ _ C1) as C2.
  pose proof (loop_covers dist (fun i => dirs i n2) (seq 1 (n1 - 1)) _ _ C2) as C3.
  pose proof (loop_covers dist (fun j => dirs 1%nat j) (seq 2 (n2 - 2)) _ _ C3) as C4.
  match type of C4 with covers _ ?s _ => set (s4 := s) in * end. change (fst (x_min s4, x_max s4)) with (x_min s4). change (snd (x_min s4, x_max s4)) with (x_max s4).
  assert (C5 : covers dist s4 (fun d => exists x y, border n1 n2 x y /\ d = dirs x y)).
  { eapply covers_ext; [|exact C4]. intros d. unfold border. split.
    - intros [[[[->|(a & Ha & ->)]|(a & Ha & ->)]|(a & Ha & ->)]|(a & Ha & ->)]; try (apply in_seq in Ha); [exists 1%nat, 1%nat|exists a, 1%nat|exists n1, a|exists a, n2|exists 1%nat, a]; split; try reflexivity; lia.
    - intros (x & y & (X & Y & B) & ->). destruct (Nat.eq_dec y 1) as [->|Y1].
      + left. left. left. destruct (Nat.eq_dec x 1) as [->|X1]; [now left|]. right. exists x. split; [apply in_seq; lia|reflexivity].
      + destruct (Nat.eq_dec x n1) as [->|X1]; [left; left; right; exists y; split; [apply in_seq; lia|reflexivity]|].
        destruct (Nat.eq_dec y n2) as [->|Y2]; [left; right; exists x; split; [apply in_seq; lia|reflexivity]|].
        assert (x = 1)%nat as -> by lia. right. exists y. split; [apply in_seq; lia|reflexivity]. }
  destruct C5 as (A & B & C & D & E). split; [exact C|]. split; [exact D|]. intros x y HB. rewrite <- A, <- B. apply E. now exists x, y.
Qed.

(** Refuted as a statement about all pixels: a direction inside the map may be
    much closer to a pixel that is not at the border. *)
Theorem C69_inside_refuted : exists (dirs : nat -> nat -> nat * nat) (dist : nat * nat -> R) x y, (1 <= x <= 3)%nat /\ (1 <= y <= 3)%nat /\
  dist (dirs x y) < dist (fst (minMaxDistPixels dirs dist 3 3)).
Proof.
  set (dirs := fun x y : nat => (x, y)). set (dist := fun d : nat * nat => if ((fst d =? 2) && (snd d =? 2))%nat%bool then 0 else 1). exists dirs, dist, 2%nat, 2%nat. split; [lia|]. split; [lia|].
  destruct (C69_extremes dirs dist 3 3 ltac:(lia) ltac:(lia)) as ((x & y & HB & E) & _). rewrite E. unfold dist, dirs. cbn [fst snd Nat.eqb andb]. unfold border in HB. destruct (Nat.eqb_spec x 2) as [->|]; destruct (Nat.eqb_spec y 2) as [->|]; cbn [andb]; try lra. lia.
Qed.

(** The corners are the four pixels at the ends of both axes. *)
Theorem C69_corners : forall n1 n2 p, In p (corners n1 n2) <-> (fst p = 1 \/ fst p = n1)%nat /\ (snd p = 1 \/ snd p = n2)%nat.
Proof.
  intros n1 n2 [x y]. unfold corners. cbn [In fst snd]. split.
  - intros [E|[E|[E|[E|[]]]]]; injection E; intros; subst; auto.
  - intros ([-> | ->] & [-> | ->]); auto.
Qed.

(** ** Solid angles *)

(** Away from the pole the solid angle of a pixel is its width at the centre
    times its height, and it is never negative ... *)
Theorem C69_solid_angle : forall pix2sph sep x y, Rabs (snd (pix2sph x y)) <> 90 ->
  solid_angle pix2sph sep x y = Rabs (sep (pix2sph (x - 1 / 2) y) (pix2sph (x + 1 / 2) y)) * (Rabs (snd (pix2sph x (y + 1 / 2)) - snd (pix2sph x (y - 1 / 2))) * PI / 180).
Proof.
  intros pix2sph sep x y H. unfold solid_angle. destruct (Reqb_spec (Rabs (snd (pix2sph x y))) 90); [contradiction|]. rewrite Rabs_mult. f_equal. unfold Rdiv. rewrite !Rabs_mult. rewrite (Rabs_right PI) by (pose proof PI_RGT_0; lra). rewrite (Rabs_right (/ 180)) by lra. reflexivity.
Qed.

Theorem C69_solid_angle_positive : forall pix2sph sep x y, 0 <= solid_angle pix2sph sep x y.
Proof.
  intros pix2sph sep x y. unfold solid_angle. cbv zeta. destruct (Reqb _ _); [apply Rmult_le_pos; [|lra]|]; apply Rabs_pos.
Qed.

(** ... refuted as a description of a pixel centred on the pole, where the width
    is that of half the pixel, twice: with longitude and latitude proportional
    to the pixel coordinates, and the pole seen under the plane angle, a pixel of
    one degree at the equator of the map keeps its area, but the pixel at the
    pole is taken from its lower edge on the left to a quarter of its height on
    the right. *)
Theorem C69_pole_refuted : forall pix2sph sep x y, Rabs (snd (pix2sph x y)) = 90 ->
  solid_angle pix2sph sep x y = 2 * (Rabs (sep (pix2sph x (y - 1 / 2)) (pix2sph (x + 1 / 2) (y - 1 / 4))) * (Rabs (snd (pix2sph x y) - snd (pix2sph x (y - 1 / 2))) * PI / 180)).
Proof.
  intros pix2sph sep x y H. unfold solid_angle. destruct (Reqb_spec (Rabs (snd (pix2sph x y))) 90); [|contradiction]. unfold Rdiv. rewrite !Rabs_mult. rewrite (Rabs_right PI) by (pose proof PI_RGT_0; lra). rewrite (Rabs_right (/ 180)) by lra. ring.
Qed.

(** ** A case *)

(** A map of three by two pixels and one energy, rebinned by two: two by one
    pixels, the second from one column only. *)
Example C69_case :
  let sky := fun (_ cdelt : R * R) (_ _ : nat) => fst cdelt * snd cdelt in
  let w := mkRmap [[[1; 2; 3]; [4; 5; 6]]] [] 3 2 (2, 1) (1, 1) false [100] [] 0 in
  let pix := fun (_ j i : nat) => INR (3 * j + i + 1) in
  described sky w pix (fun _ _ => 1) /\
  (exists w', rebin sky w 2 false = Ok w' /\ r_n1 w' = 2%nat /\ r_n2 w' = 1%nat /\ nth_error (r_image w') 0 = Some [[12; 9]]) /\
  Forall (fun s => s <> 0) [1; 2] /\ Forall (fun x => x <> 0) [3] /\ minMaxDistPixels (fun x y => (x, y)) (fun d => INR (fst d + snd d)) 3 2 = ((1, 1), (3, 2))%nat.
Proof.
  cbv zeta. split; [|split; [|split; [|split]]].
  - split; [|split].
    + split; [reflexivity|]. intros [|k] Hk; [|simpl in Hk; lia]. eexists. split; [reflexivity|]. split; [reflexivity|]. intros [|[|j]] Hj; [| |simpl in Hj; lia]; eexists; (split; [reflexivity|]); (split; [reflexivity|]); (intros [|[|[|i]]] Hi; [| | |simpl in Hi; lia]); simpl; f_equal; ring.
    + discriminate.
    + left. split; [reflexivity|]. intros i j. cbn. ring.
  - eexists. split; [reflexivity|]. split; [reflexivity|]. split; [reflexivity|]. cbn. do 3 f_equal; [|f_equal]; ring.
  - repeat constructor; lra.
  - repeat constructor; lra.
  - assert (M : forall a b, Rltb (INR a) (INR b) = (a <? b)%nat).
    { intros a b. destruct (Rltb_spec (INR a) (INR b)) as [Q|Q]; symmetry; [apply Nat.ltb_lt; now apply INR_lt|apply Nat.ltb_ge; apply INR_le; lra]. }
    unfold minMaxDistPixels. cbn [seq Nat.sub fold_left fst snd Nat.add].
    repeat (unfold look at 1; cbn [x_min x_mind x_max x_maxd fst snd Nat.add]; rewrite ?M; cbn [Nat.ltb Nat.leb x_min x_mind x_max x_maxd]; rewrite ?M; cbn [Nat.ltb Nat.leb x_min x_mind x_max x_maxd]).
    reflexivity.
Qed.

Print Assumptions C69_fold.
Print Assumptions C69_roundtrip.
Print Assumptions C69_roundtrip_refuted.
Print Assumptions C69_integrals.
Print Assumptions C69_integral_bounds.
Print Assumptions C69_oblong_refuted.
Print Assumptions C69_mirrored_refuted.
Print Assumptions C69_rebin_sum.
Print Assumptions C69_rebin_mean.
Print Assumptions C69_rebin_hole_refuted.
Print Assumptions C69_factor_zero_refuted.
Print Assumptions C69_factor_one.
Print Assumptions C69_geometry.
Print Assumptions C69_periodic_refuted.
Print Assumptions C69_negative.
Print Assumptions C69_extremes.
Print Assumptions C69_inside_refuted.
Print Assumptions C69_corners.
Print Assumptions C69_solid_angle.
Print Assumptions C69_solid_angle_positive.
Print Assumptions C69_pole_refuted.

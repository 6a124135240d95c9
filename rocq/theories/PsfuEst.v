(** Proofs for PsfuProps.v: offset maps, estimators, radius and nearest pixel. *)
From Verif Require Import Base AccumModel AccumProofs PsfuModel PsfuSpec PsfuProofs.
From Coq Require Import Reals List Lra Lia.
Import ListNotations.
Local Open Scope R_scope.

Section Est.
  Variable Dir : Type.
  Variable difference : Dir -> Dir -> R.
  Variable psf : R -> R -> R.
  Variable integral : R -> R -> R.
  Variable peakValue : R -> R.
  Notation deg := (degrees Dir difference).

  Lemma table_upd rows cols z i row j v : table rows cols z -> vec_get z i = Ok row -> (j < length row)%nat ->
    table rows cols (upd z i (upd row j v)) /\
    entry (upd z i (upd row j v)) i j = Some v /\
    (forall i' j', (i', j') <> (i, j) -> entry (upd z i (upd row j v)) i' j' = entry z i' j').
  Proof.
    intros [L R] G Hj. unfold vec_get in G. destruct (nth_error z i) as [r|] eqn:E; [|discriminate]. injection G as ->.
    assert (Hi : (i < length z)%nat) by (apply nth_error_Some; congruence).
    assert (Lr : length row = cols) by (apply R; eapply nth_error_In; eauto).
    split; [split; [now rewrite upd_length|]|split].
    - intros r Hr. apply In_nth_error in Hr. destruct Hr as [n Hn]. destruct (Nat.eq_dec n i) as [->|N].
      + rewrite nth_error_upd_eq in Hn by assumption. injection Hn as <-. now rewrite upd_length.
      + rewrite nth_error_upd_neq in Hn by auto. apply R. eapply nth_error_In; eauto.
    - unfold entry. rewrite nth_error_upd_eq by assumption. now apply nth_error_upd_eq.
    - intros i' j' N. unfold entry. destruct (Nat.eq_dec i' i) as [->|Ni].
      + rewrite nth_error_upd_eq by assumption. rewrite E. apply nth_error_upd_neq. congruence.
      + now rewrite nth_error_upd_neq by auto.
  Qed.

  Lemma table_repeat rows cols : table rows cols (repeat (repeat 0 cols) rows).
  Proof. split; [apply repeat_length|]. intros r H. apply repeat_spec in H. subst. apply repeat_length. Qed.

  Lemma planar_pow w a b x y : w * sqrt ((a - x) ^ 2 + (b - y) ^ 2) = planar w (a, b) (x, y).
  Proof. unfold planar. cbn [fst snd]. do 2 f_equal. ring. Qed.

  Definition offset_at (dir : Dir) (dm : data_map Dir) (d : pixel Dir) (j : nat) : R :=
    let s := planar (d_size dm) (d_coord dm dir) (INR (j mod d_naxis1 dm + 1), INR (j / d_naxis1 dm + 1)) in
    if Rltb (1 / 1000000) s then deg dir (p_dir (nth j (d_pixels dm) d)) / s - 1 else 0.

  Lemma createOffsetMap_ok dir dm d : length (d_pixels dm) = (d_naxis1 dm * d_naxis2 dm)%nat ->
    exists z, createOffsetMap Dir difference dir dm = Ok z /\ table (d_naxis2 dm) (d_naxis1 dm) z /\
      forall j, (j < length (d_pixels dm))%nat -> entry z (j / d_naxis1 dm) (j mod d_naxis1 dm) = Some (offset_at dir dm d j).
  Proof.
    intros L. unfold createOffsetMap.
    destruct (mfold_pairs (fun offsets jp =>
      let j := fst jp in
      if (d_naxis1 dm =? 0)%nat then UB else
      let ix := (j / d_naxis1 dm)%nat in
      let iy := (j mod d_naxis1 dm)%nat in
      let pix_sep := d_size dm * sqrt ((fst (d_coord dm dir) - INR (iy + 1)) ^ 2 + (snd (d_coord dm dir) - INR (ix + 1)) ^ 2) in
      let ang_sep := deg dir (p_dir (snd jp)) in
      let v := if Rltb (1 / 1000000) pix_sep then ang_sep / pix_sep - 1 else 0 in
      obind (vec_get offsets ix) (fun row =>
      obind (vec_set row iy v) (fun row' =>
      vec_set offsets ix row'))) (d_pixels dm) d
      (fun i z => table (d_naxis2 dm) (d_naxis1 dm) z /\ forall j, (j < i)%nat -> entry z (j / d_naxis1 dm) (j mod d_naxis1 dm) = Some (offset_at dir dm d j))
      (repeat (repeat 0 (d_naxis1 dm)) (d_naxis2 dm))) as (z & E & I).
    - split; [apply table_repeat|lia].
    - intros i z Hi [T H]. cbn [fst snd]. rewrite planar_pow.
      assert (N1 : (0 < d_naxis1 dm)%nat) by (destruct (d_naxis1 dm); lia).
      replace (d_naxis1 dm =? 0)%nat with false by (symmetry; apply Nat.eqb_neq; lia).
      assert (Hx : (i / d_naxis1 dm < d_naxis2 dm)%nat) by (apply Nat.div_lt_upper_bound; lia).
      assert (Hy : (i mod d_naxis1 dm < d_naxis1 dm)%nat) by (apply Nat.mod_upper_bound; lia).
      destruct (entry_ok _ _ _ _ _ T Hx Hy) as (row & v0 & G & G2 & _). rewrite G. cbn [obind].
      assert (Lr : length row = d_naxis1 dm). { destruct T as [_ R]. apply R. unfold vec_get in G. destruct (nth_error z _) eqn:En; [|discriminate]. injection G as <-. eapply nth_error_In; eauto. }
      rewrite vec_set_ok by lia. cbn [obind]. rewrite vec_set_ok by (destruct T; lia).
      replace (planar (d_size dm) (fst (d_coord dm dir), snd (d_coord dm dir)) (INR (i mod d_naxis1 dm + 1), INR (i / d_naxis1 dm + 1)))
        with (planar (d_size dm) (d_coord dm dir) (INR (i mod d_naxis1 dm + 1), INR (i / d_naxis1 dm + 1))) by (destruct (d_coord dm dir); reflexivity).
      eexists; split; [reflexivity|]. fold (offset_at dir dm d i).
      destruct (table_upd _ _ _ _ _ (i mod d_naxis1 dm) (offset_at dir dm d i) T G ltac:(lia)) as (T' & A & B).
      split; [exact T'|]. intros j Hj. destruct (Nat.eq_dec j i) as [->|N]; [exact A|]. rewrite B; [apply H; lia|].
      intros C. injection C as C1 C2. apply N. rewrite (Nat.div_mod j (d_naxis1 dm)), (Nat.div_mod i (d_naxis1 dm)) by lia. now rewrite C1, C2.
    - exists z. destruct I as [T H]. split; [exact E|]. split; [exact T|exact H].
  Qed.

  (** ** Mean over sub-pixels *)

  Lemma part_eq c n i : (0 < n)%nat -> c + INR i * (1 / INR n) - 1 / 2 + 1 / 2 * (1 / INR n) = part c n i.
  Proof. intros H. unfold part. assert (INR n <> 0) by (apply not_0_INR; lia). field. assumption. Qed.

  Lemma fast_ok rows cols z energy srcCoord pc size n : (2 <= rows)%nat -> (2 <= cols)%nat -> table rows cols z -> (0 < n)%nat ->
    exists s, (forall a b, (a < n)%nat -> (b < n)%nat -> bilinear_on_grid (part (snd pc) n b - 1) (part (fst pc) n a - 1) z = Ok (s a b)) /\
      integrate_psf_fast psf energy srcCoord pc z size n =
      Ok (total n (fun a => total n (fun b => psf energy (planar size srcCoord (part (fst pc) n a, part (snd pc) n b) * (1 + s a b)))) / INR (n * n)).
  Proof.
    intros Hr Hc T Hn.
    set (s := fun a b : nat => match bilinear_on_grid (part (snd pc) n b - 1) (part (fst pc) n a - 1) z with Ok v => v | _ => 0 end).
    assert (Hs : forall a b, bilinear_on_grid (part (snd pc) n b - 1) (part (fst pc) n a - 1) z = Ok (s a b)).
    { intros a b. unfold s. destruct (bilinear_formula _ _ _ (part (snd pc) n b - 1) (part (fst pc) n a - 1) T Hr Hc) as (i & j & rx & ry & z1 & z2 & z3 & z4 & _ & _ & _ & _ & _ & _ & _ & _ & ->). reflexivity. }
    exists s. split; [intros; apply Hs|]. unfold integrate_psf_fast. replace (n =? 0)%nat with false by (symmetry; apply Nat.eqb_neq; lia).
    set (g := fun a b => psf energy (planar size srcCoord (part (fst pc) n a, part (snd pc) n b) * (1 + s a b))).
    loop (fun i t => t = total i (fun a => total n (g a))) t E It;
      [reflexivity| |rewrite E, It; reflexivity].
    intros i t Hi ->. cbn [plus]. cbv beta.
    loop (fun j t => t = total i (fun a => total n (g a)) + total j (g i)) t E It;
      [rewrite total_0; lra| |rewrite E; eexists; split; [reflexivity|rewrite It, total_S; reflexivity]].
    intros j t Hj ->. cbn [plus]. cbv beta. rewrite !part_eq by assumption. rewrite Hs. cbn [obind]. eexists; split; [reflexivity|].
    rewrite total_S. rewrite planar_pow. unfold g. replace (fst srcCoord, snd srcCoord) with srcCoord by (destruct srcCoord; reflexivity). lra.
  Qed.

  Lemma fast_flat dir (dm : data_map Dir) energy pc n rows cols z :
    (2 <= rows)%nat -> (2 <= cols)%nat -> table rows cols z -> (forall i j, (i < rows)%nat -> (j < cols)%nat -> entry z i j = Some 0) -> (0 < n)%nat ->
    integrate_psf_fast psf energy (d_coord dm dir) pc z (d_size dm) n =
    Ok (total n (fun a => total n (fun b => psf energy (planar (d_size dm) (d_coord dm dir) (part (fst pc) n a, part (snd pc) n b)))) / INR (n * n)).
  Proof.
    intros Hr Hc T Z Hn. destruct (fast_ok rows cols z energy (d_coord dm dir) pc (d_size dm) n Hr Hc T Hn) as (s & Hs & ->).
    do 2 f_equal. apply total_ext. intros a Ha. apply total_ext. intros b Hb. specialize (Hs a b Ha Hb).
    rewrite (bilinear_poly 0 0 0 0 rows cols) in Hs; [injection Hs as Hs|assumption|assumption|assumption|intros i j Hi Hj; rewrite Z by assumption; f_equal; ring].
    f_equal. rewrite <- Hs. ring.
  Qed.

  (** ** Adaptive estimate *)

  Lemma adaptive_loop_ok (fast : nat -> outcome R) (F : nat -> R) ftol r k v0 :
    (forall i, (1 <= i <= 6)%nat -> fast (2 ^ i)%nat = Ok (F i)) -> F k = v0 -> (r + k = 6)%nat -> (0 < r)%nat ->
    exists m, (k < m <= 6)%nat /\ adaptive_loop fast ftol r (2 ^ k) v0 = Ok (F m) /\
      (forall i, (k < i < m)%nat -> F i <> F (i - 1)%nat /\ F i <> 0 /\ ftol <= Rabs ((F i - F (i - 1)%nat) / F i)) /\
      (m = 6%nat \/ F m = F (m - 1)%nat \/ F m = 0 \/ Rabs ((F m - F (m - 1)%nat) / F m) < ftol).
  Proof.
    intros HF. revert k v0. induction r as [|r IH]; intros k v0 Hk Hr Hp; [lia|]. cbn [adaptive_loop].
    replace (2 ^ k * 2)%nat with (2 ^ S k)%nat by (cbn; lia). rewrite HF by lia. cbn [obind].
    destruct (Reqb_spec (F (S k) - v0) 0) as [C|C]; cbn [orb].
    { exists (S k). split; [lia|]. split; [reflexivity|]. split; [intros; lia|]. right. left. replace (S k - 1)%nat with k by lia. lra. }
    destruct (Reqb_spec (F (S k)) 0) as [D|D]; cbn [orb].
    { exists (S k). split; [lia|]. split; [reflexivity|]. split; [intros; lia|]. right. right. now left. }
    destruct (Rltb_spec (Rabs ((F (S k) - v0) / F (S k))) ftol) as [E|E]; cbn [orb].
    { exists (S k). split; [lia|]. split; [reflexivity|]. split; [intros; lia|]. right. right. right. replace (S k - 1)%nat with k by lia. now rewrite Hk. }
    destruct (Nat.leb_spec 64 (2 ^ S k)) as [G|G]; cbn [orb].
    { exists (S k). split; [lia|]. split; [reflexivity|]. split; [intros; lia|]. left.
      change 64%nat with (2 ^ 6)%nat in G. apply Nat.pow_le_mono_r_iff in G; lia. }
    assert (Hr0 : (0 < r)%nat). { destruct r; [|lia]. assert (k = 5)%nat by lia. subst k. cbn in G. lia. }
    destruct (IH (S k) (F (S k)) eq_refl ltac:(lia) Hr0) as (m & Hm & -> & H1 & H2).
    exists m. split; [lia|]. split; [reflexivity|]. split; [|exact H2].
    intros i Hi. destruct (Nat.eq_dec i (S k)) as [->|N]; [|apply H1; lia].
    replace (S k - 1)%nat with k by lia. rewrite Hk. split; [lra|]. split; [assumption|lra].
  Qed.

  (** ** Annular estimate *)

  Lemma annular_cone energy dir p : 0 < p_omega p <= 4 * PI -> deg dir (p_dir p) <= sqrt (p_omega p) * 180 / PI / 2 ->
    exists v theta, psfValue_annular Dir difference integral energy dir p = Ok v /\ 0 <= theta <= 180 /\ cone theta = p_omega p /\ v * p_omega p = integral theta energy.
  Proof.
    intros Ho Hd. pose proof PI_RGT_0 as HP. unfold psfValue_annular.
    destruct (Rleb_spec (deg dir (p_dir p)) (sqrt (p_omega p) * 180 / PI / 2)) as [_|C]; [|lra].
    assert (Hq : 0 < p_omega p / 2 / PI <= 2).
    { split; [apply Rdiv_lt_0_compat; lra|]. apply Rmult_le_reg_r with PI; [lra|]. unfold Rdiv. rewrite Rmult_assoc, Rinv_l by lra. lra. }
    destruct (Rltb_spec (1 - p_omega p / 2 / PI) (-1)) as [C|C]; [lra|]. destruct (Rltb_spec 1 (1 - p_omega p / 2 / PI)) as [D|D]; [lra|].
    destruct (Reqb_spec (p_omega p) 0) as [E|E]; [lra|]. cbn [orb].
    eexists. exists (acos (1 - p_omega p / 2 / PI) * 180 / PI). split; [reflexivity|].
    pose proof (acos_bound (1 - p_omega p / 2 / PI)) as Hb.
    split; [split|split].
    - apply Rmult_le_pos; [apply Rmult_le_pos; lra|]. left. apply Rinv_0_lt_compat. lra.
    - apply Rmult_le_reg_r with PI; [lra|]. unfold Rdiv at 1. rewrite Rmult_assoc, Rinv_l by lra. lra.
    - unfold cone. replace (acos (1 - p_omega p / 2 / PI) * 180 / PI * PI / 180) with (acos (1 - p_omega p / 2 / PI)) by (field; lra).
      rewrite cos_acos by lra. field. lra.
    - field. assumption.
  Qed.

  Lemma annular_ring energy dir p : let o := deg dir (p_dir p) in let w := sqrt (p_omega p) * 180 / PI in
    0 < p_omega p -> w / 2 < o -> o + w / 2 <= 180 ->
    exists v, psfValue_annular Dir difference integral energy dir p = Ok v /\
      v * (cone (o + w / 2) - cone (o - w / 2)) = integral (o + w / 2) energy - integral (o - w / 2) energy.
  Proof.
    intros o w Ho H1 H2. pose proof PI_RGT_0 as HP. unfold psfValue_annular. fold o w.
    destruct (Rleb_spec o (w / 2)) as [C|C]; [lra|].
    assert (Hw : 0 < w). { unfold w. apply Rdiv_lt_0_compat; [|lra]. apply Rmult_lt_0_compat; [|lra]. now apply sqrt_lt_R0. }
    assert (Hc : cos ((o + w / 2) * PI / 180) < cos ((o - w / 2) * PI / 180)).
    { apply cos_decreasing_1.
      - apply Rmult_le_pos; [apply Rmult_le_pos; lra|lra].
      - apply Rmult_le_reg_r with 180; [lra|]. unfold Rdiv at 1. rewrite Rmult_assoc, Rinv_l by lra. rewrite Rmult_1_r, (Rmult_comm PI). apply Rmult_le_compat_r; lra.
      - apply Rmult_le_pos; [apply Rmult_le_pos; lra|lra].
      - apply Rmult_le_reg_r with 180; [lra|]. unfold Rdiv at 1. rewrite Rmult_assoc, Rinv_l by lra. rewrite Rmult_1_r, (Rmult_comm PI). apply Rmult_le_compat_r; lra.
      - unfold Rdiv. apply Rmult_lt_compat_r; [lra|]. apply Rmult_lt_compat_r; lra. }
    assert (Ha : 0 < 2 * PI * (cos ((o - w / 2) * PI / 180) - cos ((o + w / 2) * PI / 180))) by (apply Rmult_lt_0_compat; lra).
    destruct (Reqb_spec (2 * PI * (cos ((o - w / 2) * PI / 180) - cos ((o + w / 2) * PI / 180))) 0) as [E|E]; [lra|].
    eexists; split; [reflexivity|]. unfold cone.
    replace (2 * PI * (1 - cos ((o + w / 2) * PI / 180)) - 2 * PI * (1 - cos ((o - w / 2) * PI / 180)))
      with (2 * PI * (cos ((o - w / 2) * PI / 180) - cos ((o + w / 2) * PI / 180))) by ring.
    field. split; lra.
  Qed.

  (** ** Radius and nearest pixel *)

  Lemma maxPsfRadius_ok dir dm : d_border dm <> [] ->
    exists r b, maxPsfRadius Dir difference dir dm = Ok r /\ In b (d_border dm) /\ r = deg dir b /\ forall b', In b' (d_border dm) -> r <= deg dir b'.
  Proof.
    intros N. pose proof PI_RGT_0 as HP. unfold maxPsfRadius. destruct (d_border dm) as [|b0 l] eqn:EB; [congruence|]. cbn [vec_at nth_error obind].
    loop (fun i t => (exists b, In b (b0 :: l) /\ t = difference dir b) /\ forall j, (j <= i)%nat -> (j < length (b0 :: l))%nat -> t <= difference dir (nth j (b0 :: l) b0)) t E It.
    - split; [exists b0; split; [now left|reflexivity]|]. intros j Hj _. replace j with 0%nat by lia. cbn. lra.
    - intros i t Hi [(b & Hb & ->) H]. unfold vec_at. assert (Hs : (1 + i < length (b0 :: l))%nat) by lia.
      rewrite (nth_error_nth' (b0 :: l) b0 Hs). cbn [obind]. eexists; split; [reflexivity|]. cbv zeta.
      destruct (Rltb_spec (difference dir (nth (1 + i) (b0 :: l) b0)) (difference dir b)) as [C|C].
      + split; [exists (nth (1 + i) (b0 :: l) b0); split; [now apply nth_In|reflexivity]|].
        intros j Hj Hl. destruct (Nat.eq_dec j (1 + i)) as [->|Nj]; [lra|]. specialize (H j ltac:(lia) Hl). lra.
      + split; [eauto|]. intros j Hj Hl. destruct (Nat.eq_dec j (1 + i)) as [->|Nj]; [lra|]. apply H; lia.
    - rewrite E. cbn [obind]. destruct It as [(b & Hb & ->) H]. exists (deg dir b), b.
      split; [reflexivity|]. split; [exact Hb|]. split; [reflexivity|]. intros b' Hb'.
      destruct (In_nth _ _ b0 Hb') as (j & Hj & <-). specialize (H j ltac:(cbn [length] in *; lia) Hj).
      unfold degrees, Rdiv. apply Rmult_le_compat_r; [left; apply Rinv_0_lt_compat; lra|]. lra.
  Qed.

  Lemma find_ok (ps : list (pixel Dir)) dir d : ps <> [] ->
    exists c, (c < length ps)%nat /\ (forall j, (j < length ps)%nat -> difference (p_dir (nth c ps d)) dir <= difference (p_dir (nth j ps d)) dir) /\
      (forall j, (j < c)%nat -> difference (p_dir (nth c ps d)) dir < difference (p_dir (nth j ps d)) dir) /\
      find_pixel Dir difference ps dir = Ok (if Rltb (1 - p_omega (nth c ps d) / 2 / PI) (cos (difference (p_dir (nth c ps d)) dir / 2)) then Some c else None).
  Proof.
    intros N. unfold find_pixel. rewrite (vec_get_ok ps 0 d) by (destruct ps; [congruence|cbn; lia]). cbn [obind].
    rewrite (combine_seq_map ps d 0).
    set (step := fun st jp => let newdist := difference (p_dir (snd jp)) dir in if Rltb newdist (fst st) then (newdist, fst jp) else st).
    assert (H : forall n, (n <= length ps)%nat -> exists c, (c < length ps)%nat /\ (c <= n)%nat /\
       fold_left step (map (fun i => (i, nth (i - 0) ps d)) (seq 0 n)) (difference (p_dir (nth 0 ps d)) dir, 0%nat) = (difference (p_dir (nth c ps d)) dir, c) /\
       (forall j, (j < n)%nat -> difference (p_dir (nth c ps d)) dir <= difference (p_dir (nth j ps d)) dir) /\
       (forall j, (j < c)%nat -> difference (p_dir (nth c ps d)) dir < difference (p_dir (nth j ps d)) dir)).
    { induction n as [|n IH]; intros Hn.
      - exists 0%nat. split; [destruct ps; [congruence|cbn; lia]|]. split; [lia|]. split; [reflexivity|]. split; intros; lia.
      - destruct (IH ltac:(lia)) as (c & Hc & Hcn & E & H1 & H2). rewrite seq_S, map_app, fold_left_app, E. cbn [map fold_left plus]. unfold step at 1. cbn [fst snd]. rewrite Nat.sub_0_r.
        destruct (Rltb_spec (difference (p_dir (nth n ps d)) dir) (difference (p_dir (nth c ps d)) dir)) as [L|L].
        + exists n. split; [lia|]. split; [lia|]. split; [reflexivity|]. split.
          * intros j Hj. destruct (Nat.eq_dec j n) as [->|Nj]; [lra|]. specialize (H1 j ltac:(lia)). lra.
          * intros j Hj. specialize (H1 j ltac:(lia)). lra.
        + exists c. split; [lia|]. split; [lia|]. split; [reflexivity|]. split; [|exact H2].
          intros j Hj. destruct (Nat.eq_dec j n) as [->|Nj]; [lra|]. apply H1; lia. }
    destruct (H (length ps) ltac:(lia)) as (c & Hc & _ & E & H1 & H2). fold step. rewrite E. cbv iota.
    exists c. split; [exact Hc|]. split; [exact H1|]. split; [exact H2|]. rewrite (vec_get_ok ps c d) by assumption. reflexivity.
  Qed.
End Est.

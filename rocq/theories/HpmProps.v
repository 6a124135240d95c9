(** C81/C181: sky maps in HEALPix pixels. *)
From Coq Require Import Reals Lra ZArith List Bool Lia String.
From Verif Require Import Base AccumModel AccumProofs EvtModel WmapModel WmapSpec WmapProofs CmapModel CmapSpec CmapProofs CmapProofs2 DexpSpec WmapProps HpmModel HpmSpec HpmProofs.
Import ListNotations.
Local Open Scope list_scope.
Local Open Scope R_scope.

(** ** Look-ups *)

(** Without interpolation: the value of the pixel the direction is in. *)
Theorem C81_nearest : forall {D} (pix : nat -> D -> nat) near h d k v, shaped h -> h_interp h = false ->
  at_pixel h k (pix (h_nside h) d) v -> value_plane pix near h d (Z.of_nat k) = Ok v.
Proof.
  intros D pix near h d k v (L & S) Hi (plane & E1 & E2). assert (k < length (h_energies h))%nat by (rewrite <- L; apply nth_error_Some; congruence).
  unfold value_plane. rewrite not_refused by assumption. rewrite Nat2Z.id. unfold vec_get at 1. rewrite E1. cbn [obind]. rewrite Hi.
  destruct (S k plane E1) as (-> & _). unfold vec_get. now rewrite E2.
Qed.
Print Assumptions C81_nearest.

(** With interpolation: between the smallest and the largest value of the plane. *)
Theorem C81_interpolated : forall {D} (pix : nat -> D -> nat) near h d k lo hi, shaped h -> h_interp h = true -> (k < length (h_energies h))%nat ->
  weights (near (h_nside h) d) -> (forall i w, In (i, w) (near (h_nside h) d) -> (i < 12 * h_nside h * h_nside h)%nat) ->
  (forall i v, at_pixel h k i v -> lo <= v <= hi) ->
  exists v, value_plane pix near h d (Z.of_nat k) = Ok v /\ lo <= v <= hi.
Proof.
  intros D pix near h d k lo hi (L & S) Hi Hk (W1 & W2) Hin Hv. unfold value_plane. rewrite not_refused by assumption. rewrite Nat2Z.id. unfold vec_get at 1.
  destruct (nth_error (h_image h) k) as [plane|] eqn:E1; [|apply nth_error_None in E1; lia]. cbn [obind]. rewrite Hi. destruct (S k plane E1) as (F & Lp). rewrite F.
  destruct (interp_loop (snd plane) lo hi (near (h_nside h) d)) with (a := 0) as (v & E & B).
  - intros i w H. rewrite Lp. now apply (Hin i w).
  - intros i H. apply (Hv i). exists plane. split; [exact E1|]. now apply nth_error_nth'.
  - exact W1.
  - rewrite E. exists (0 + v). split; [reflexivity|]. rewrite W2 in B. lra.
Qed.
Print Assumptions C81_interpolated.

(** Between two energies: on the power law through the values on their planes. *)
Theorem C81_power_law : forall {D} (pix : nat -> D -> nat) near h d e k a b y1 y2, increasing (h_energies h) -> 0 < a -> 0 < e -> h_enforce h = false \/ a <= e <= b ->
  pair_for (h_energies h) e k a b -> value_plane pix near h d (Z.of_nat k) = Ok y1 -> value_plane pix near h d (Z.of_nat (S k)) = Ok y2 -> 0 < y1 -> 0 < y2 ->
  exists y, value pix near h d e = Ok y /\ on_power_law a y1 b y2 e y /\ (a <= e <= b -> Rmin y1 y2 <= y <= Rmax y1 y2).
Proof.
  intros D pix near h d e k a b y1 y2 HI Ga Ge HB PF E1 E2 G1 G2. pose proof PF as (Ha & Hb & _). assert (Hab : a < b) by (apply (HI k); assumption).
  rewrite (value_pair pix near h d e k a b y1 HI ltac:(lra) HB PF E1).
  assert (L : forall y, 0 < y -> lift y = y) by (intros y Hy; unfold lift; destruct (Rltb_spec y 0); [lra|reflexivity]).
  destruct (power_law_ok e a b y1 y2 Ge Ga ltac:(lra) ltac:(lra) G1 G2) as (y & Ey & PL).
  assert (G : exists y', (if Reqb e a then Ok y1 else obind (value_plane pix near h d (Z.of_nat (S k))) (fun y2 => interpolatePowerLaw e a b (lift y1) (lift y2))) = Ok y' /\ on_power_law a y1 b y2 e y').
  { destruct (Reqb_spec e a) as [->|N].
    - exists y1. split; [reflexivity|]. destruct PL as (n & g & A & B & C). exists n, g. auto.
    - rewrite E2. cbn [obind]. rewrite !L by assumption. exists y. split; assumption. }
  destruct G as (y' & E' & P'). exists y'. split; [exact E'|]. split; [exact P'|]. intros He. now apply (power_law_between a y1 b y2 e).
Qed.
Print Assumptions C81_power_law.

(** At the energy of a plane: the value on that plane, if the map is nowhere negative in this direction. *)
Theorem C81_node : forall {D} (pix : nat -> D -> nat) near h d k e y, increasing (h_energies h) -> (1 < length (h_energies h))%nat -> (forall a, In a (h_energies h) -> 0 < a) ->
  (forall j, (j < length (h_energies h))%nat -> exists v, value_plane pix near h d (Z.of_nat j) = Ok v /\ 0 <= v) ->
  nth_error (h_energies h) k = Some e -> value_plane pix near h d (Z.of_nat k) = Ok y -> value pix near h d e = Ok y.
Proof.
  intros D pix near h d k e y HI HL HP HV Ek Ey. assert (Lk : (k < length (h_energies h))%nat) by (apply nth_error_Some; congruence).
  assert (Pe : 0 < e) by (apply HP; eapply nth_error_In; eassumption).
  destruct (Nat.eq_dec (S k) (length (h_energies h))) as [Hl|Hl].
  - destruct k as [|k]; [lia|]. destruct (nth_error (h_energies h) k) as [a|] eqn:Ea; [|apply nth_error_None in Ea; lia].
    assert (Hab : a < e) by (apply (HI k); assumption). assert (Pa : 0 < a) by (apply HP; eapply nth_error_In; eassumption).
    assert (PF : pair_for (h_energies h) e k a e) by (repeat split; auto; left; lra).
    destruct (HV k ltac:(lia)) as (y1 & E1 & G1). destruct (HV (S k) ltac:(lia)) as (y2 & E2 & G2). assert (y2 = y) by congruence. subst y2.
    rewrite (value_pair pix near h d e k a e y1 HI ltac:(lra) (or_intror (conj (Rlt_le _ _ Hab) (Rle_refl e))) PF E1).
    destruct (Reqb_spec e a); [lra|]. rewrite E2. cbn [obind].
    assert (L : forall y, 0 <= y -> lift y = y) by (intros z Hz; unfold lift; destruct (Rltb_spec z 0); [lra|reflexivity]). rewrite !L by assumption.
    destruct (Req_dec y1 0) as [Z1|Z1]; [|destruct (Req_dec y 0) as [Z2|Z2]].
    + destruct (linear_ok e a e y1 y Hab (or_introl Z1) ltac:(lra)) as (z & Ez & Hz). rewrite Ez. f_equal. unfold on_line in Hz. apply Rmult_eq_reg_r in Hz; lra.
    + destruct (linear_ok e a e y1 y Hab (or_intror Z2) ltac:(lra)) as (z & Ez & Hz). rewrite Ez. f_equal. unfold on_line in Hz. apply Rmult_eq_reg_r in Hz; lra.
    + destruct (power_law_ok e a e y1 y ltac:(lra) ltac:(lra) ltac:(lra) ltac:(lra) ltac:(lra) ltac:(lra)) as (z & Ez & (n' & g & _ & A2 & A3)). rewrite Ez. f_equal. congruence.
  - destruct (nth_error (h_energies h) (S k)) as [b|] eqn:Eb; [|apply nth_error_None in Eb; lia]. assert (Hab : e < b) by (apply (HI k); assumption).
    assert (PF : pair_for (h_energies h) e k e b) by (repeat split; auto; left; lra).
    rewrite (value_pair pix near h d e k e b y HI ltac:(lra) (or_intror (conj (Rle_refl e) (Rlt_le _ _ Hab))) PF Ey).
    destruct (Reqb_spec e e); [reflexivity|lra].
Qed.
Print Assumptions C81_node.

(** Tiny negative values on the planes, as interpolation over pixels may give, do not make the value between two energies
    negative. *)
Theorem C81_nonnegative : forall {D} (pix : nat -> D -> nat) near h d e k a b y1 y2 y, increasing (h_energies h) -> 0 < a -> 0 < e -> h_enforce h = false \/ a <= e <= b -> e <> a ->
  pair_for (h_energies h) e k a b -> value_plane pix near h d (Z.of_nat k) = Ok y1 -> value_plane pix near h d (Z.of_nat (S k)) = Ok y2 ->
  - (1 / 10 ^ 10) < y1 -> - (1 / 10 ^ 10) < y2 -> value pix near h d e = Ok y -> 0 <= y.
Proof.
  intros D pix near h d e k a b y1 y2 y HI Ga Ge HB Hea PF E1 E2 G1 G2 E. pose proof PF as (Ha & Hb & _). assert (Hab : a < b) by (apply (HI k); assumption).
  rewrite (value_pair pix near h d e k a b y1 HI ltac:(lra) HB PF E1) in E. destruct (Reqb_spec e a); [contradiction|]. rewrite E2 in E. cbn [obind] in E.
  assert (L : forall y, - (1 / 10 ^ 10) < y -> 0 <= lift y).
  { intros z Hz. unfold lift, almost_zero. destruct (Rltb_spec z 0); cbn [andb]; [|lra]. destruct (Rltb_spec (- (1 / 10 ^ 10)) z); cbn [andb]; lra. }
  exact (nonneg_ok e a b (lift y1) (lift y2) y Hab (L _ G1) (L _ G2) E).
Qed.
Print Assumptions C81_nonnegative.

(** With enforced boundaries an energy off the range is refused. *)
Theorem C81_enforced : forall {D} (pix : nat -> D -> nat) near h d e lo hi, h_enforce h = true -> nth_error (h_energies h) 0 = Some lo -> nth_error (h_energies h) (length (h_energies h) - 1) = Some hi ->
  0 <= e -> e < lo \/ hi < e -> value pix near h d e = Throw.
Proof.
  intros D pix near h d e lo hi Hen H0 H1 He Ho. unfold value. destruct (Rltb_spec e 0); [lra|]. cbn [obind]. unfold check_energy. rewrite Hen. unfold front, back, vec_get. rewrite H0. cbn [obind].
  destruct (h_energies h) as [|z l] eqn:EE; [discriminate H0|]. rewrite H1. cbn [obind]. destruct (Rltb_spec e lo); [reflexivity|]. destruct (Rltb_spec hi e); [reflexivity|]. lra.
Qed.
Print Assumptions C81_enforced.

(** ** Making maps *)

Lemma source_shape nside f energy interp enforce : (forall i, (i < 12 * nside * nside)%nat -> - (1 / 10 ^ 10) < f i) ->
  exists h, of_source nside f energy interp enforce = Ok h /\ integrated h /\ h_image h = [(nside, map (fun i => Rmax 0 (f i)) (seq 0 (npix nside)))] /\ h_energies h = [energy] /\ h_nside h = nside /\
  h_omega h = omega nside /\ h_interp h = interp /\ h_enforce h = enforce.
Proof.
  intros Hf. unfold of_source.
  assert (E : map (fun i => if Rltb (f i) 0 && Rltb almost_zero (f i) then 0 else f i) (seq 0 (npix nside)) = map (fun i => Rmax 0 (f i)) (seq 0 (npix nside))).
  { apply map_ext_in. intros i Hi. apply in_seq in Hi. specialize (Hf i ltac:(unfold npix in Hi; lia)). unfold almost_zero.
    destruct (Rltb_spec (f i) 0); cbn [andb]; [|now rewrite Rmax_right by lra]. destruct (Rltb_spec (- (1 / 10 ^ 10)) (f i)); [|lra]. now rewrite Rmax_left by lra. }
  rewrite E. assert (X : existsb (fun v => Rltb v 0) (map (fun i => Rmax 0 (f i)) (seq 0 (npix nside))) = false).
  { apply not_true_is_false. intros X. apply existsb_exists in X. destruct X as (v & Hv & Hl). apply in_map_iff in Hv. destruct Hv as (i & <- & _). destruct (Rltb_spec (Rmax 0 (f i)) 0); [|discriminate]. pose proof (Rmax_l 0 (f i)). lra. }
  rewrite X.
  match goal with |- context [computeMapIntegrals ?h0] => destruct (ints_ok h0) as (h & Eh & Ih & F1 & F2 & F3 & F4 & F5 & F6) end.
  - split; [reflexivity|]. intros [|k] plane H; [|destruct k; discriminate]. cbn in H. injection H as <-. split; [reflexivity|]. cbn [snd]. now rewrite map_length, seq_length.
  - discriminate.
  - exists h. rewrite Eh. auto 10.
Qed.

(** From a spatial distribution: its value in every pixel (tiny negative ones are zero), and the integral is the sum over
    the pixels times 4 pi over their number; a constant gives 4 pi times it. *)
Theorem C81_source : forall nside f energy interp enforce, (0 < nside)%nat -> (forall i, (i < 12 * nside * nside)%nat -> - (1 / 10 ^ 10) < f i) ->
  exists h, of_source nside f energy interp enforce = Ok h /\ shaped h /\ integrated h /\ h_energies h = [energy] /\ h_interp h = interp /\ h_enforce h = enforce /\
  (forall i, (i < 12 * nside * nside)%nat -> at_pixel h 0 i (Rmax 0 (f i))) /\
  h_total h = 4 * PI / INR (12 * nside * nside) * sum (12 * nside * nside) (fun i => Rmax 0 (f i)) /\
  (forall c, 0 <= c -> (forall i, (i < 12 * nside * nside)%nat -> f i = c) -> h_total h = 4 * PI * c).
Proof.
  intros nside f energy interp enforce Hn Hf. destruct (source_shape nside f energy interp enforce Hf) as (h & E & I & Im & En & Ns & Om & Hi & He).
  assert (T : h_total h = 4 * PI / INR (12 * nside * nside) * sum (12 * nside * nside) (fun i => Rmax 0 (f i))).
  { destruct I as (I1 & I2 & I3 & _). rewrite I3 by (rewrite En; reflexivity). rewrite (I2 0%nat (nside, map (fun i => Rmax 0 (f i)) (seq 0 (npix nside)))) by (rewrite ?Im, ?En; cbn; auto).
    rewrite Om. cbn [snd]. unfold omega. rewrite Rmult_comm. f_equal.
    change (npix nside) with (12 * nside * nside)%nat. generalize (12 * nside * nside)%nat. induction n as [|n IH]; [reflexivity|]. rewrite seq_S', map_app, total_app, IH. cbn [sum]. unfold total at 1. cbn. lra. }
  exists h. split; [exact E|]. split.
  { split; [rewrite Im, En; reflexivity|]. intros [|k] plane H; rewrite Im in H; [|destruct k; discriminate]. cbn in H. injection H as <-. split; [symmetry; exact Ns|]. cbn [snd]. rewrite map_length, seq_length, Ns. reflexivity. }
  split; [exact I|]. split; [exact En|]. split; [exact Hi|]. split; [exact He|]. split.
  { intros i Li. exists (nside, map (fun i => Rmax 0 (f i)) (seq 0 (npix nside))). rewrite Im. split; [reflexivity|]. cbn [snd]. apply (map_nth_error (fun i => Rmax 0 (f i))). rewrite (nth_error_nth' _ 0%nat) by (rewrite seq_length; exact Li). f_equal. now rewrite seq_nth by exact Li. }
  split; [exact T|]. intros c Hc Hfc. rewrite T.
  assert (Sm : forall m, (m <= 12 * nside * nside)%nat -> sum m (fun i => Rmax 0 (f i)) = INR m * c).
  { induction m as [|m IH]; intros Hm; [cbn; lra|]. cbn [sum]. rewrite IH by lia. rewrite Hfc by lia. rewrite Rmax_right by lra. rewrite S_INR. lra. }
  rewrite Sm by lia. assert (0 < INR (12 * nside * nside)) by (apply npix_pos; exact Hn). field. lra.
Qed.
Print Assumptions C81_source.

(** A value clearly below zero anywhere is refused. *)
Theorem C81_source_negative : forall nside f energy interp enforce i, (i < 12 * nside * nside)%nat -> f i <= - (1 / 10 ^ 10) -> of_source nside f energy interp enforce = Throw.
Proof.
  intros nside f energy interp enforce i Hi Hf. unfold of_source.
  assert (X : existsb (fun v => Rltb v 0) (map (fun i => if Rltb (f i) 0 && Rltb almost_zero (f i) then 0 else f i) (seq 0 (npix nside))) = true).
  { apply existsb_exists. exists (f i). split.
    - apply in_map_iff. exists i. split; [|apply in_seq; unfold npix; lia]. unfold almost_zero. destruct (Rltb_spec (- (1 / 10 ^ 10)) (f i)); [lra|]. now rewrite andb_false_r.
    - destruct (Rltb_spec (f i) 0); [reflexivity|lra]. }
  now rewrite X.
Qed.
Print Assumptions C81_source_negative.

(** From a counts map: intensities that give the counts back when multiplied by the solid angle and the width of the bin,
    at the geometric means of the bounds; or, for weights, the same numbers. *)
Theorem C81_counts : forall nside data edges intensity, (0 < nside)%nat -> (2 <= length edges)%nat -> (forall k, (S k < length edges)%nat -> nth k edges 0 < nth (S k) edges 0) ->
  length data = ((length edges - 1) * (12 * nside * nside))%nat ->
  exists h, of_counts nside data edges intensity = Ok h /\ shaped h /\ integrated h /\ length (h_energies h) = (length edges - 1)%nat /\
  (forall k, (S k < length edges)%nat -> nth k (h_energies h) 0 = sqrt (nth k edges 0 * nth (S k) edges 0)) /\
  forall k i, (S k < length edges)%nat -> (i < 12 * nside * nside)%nat -> exists v, at_pixel h k i v /\
    nth (k * (12 * nside * nside) + i) data 0 = if intensity then v * (4 * PI / INR (12 * nside * nside)) * (nth (S k) edges 0 - nth k edges 0) else v.
Proof.
  intros nside data edges intensity Hn He Hinc Hd. unfold of_counts.
  assert (Hne : edges <> []) by (intros ->; cbn in He; lia). rewrite (centres_ok [] edges Hne). cbn [obind].
  set (nb := (length edges - 1)%nat) in *.
  assert (Ew : (if intensity then fillEnergyBinWidths [] edges else Ok []) = Ok (if intensity then map (width edges) (seq 0 nb) else [])).
  { destruct intensity; [now rewrite (widths_ok [] edges Hne)|reflexivity]. }
  rewrite Ew. cbn [obind]. unfold foldVector. destruct (Nat.ltb_spec (length data) (nb * npix nside)) as [X|_]; [rewrite Hd in X; unfold npix in X; lia|]. cbn [obind].
  set (image := map (fun k => (nside, firstn (npix nside) (skipn (k * npix nside) data))) (seq 0 nb)).
  assert (Li : length image = nb) by (unfold image; now rewrite map_length, seq_length).
  assert (Ei : forall k, (k < nb)%nat -> nth_error image k = Some (nside, firstn (npix nside) (skipn (k * npix nside) data))).
  { intros k Hk. unfold image. apply (map_nth_error (fun k => (nside, firstn (npix nside) (skipn (k * npix nside) data)))). rewrite (nth_error_nth' _ 0%nat) by (rewrite seq_length; exact Hk). f_equal. now rewrite seq_nth by exact Hk. }
  assert (Lp : forall k, (k < nb)%nat -> length (firstn (npix nside) (skipn (k * npix nside) data)) = npix nside).
  { intros k Hk. rewrite firstn_length, skipn_length, Hd. change (12 * nside * nside)%nat with (npix nside). apply Nat.min_l. nia. }
  pose proof (omega_pos nside Hn) as Po.
  assert (Nw : forall k, (k < nb)%nat -> nth k (map (width edges) (seq 0 nb)) 0 = width edges k).
  { intros k Hk. apply nth_error_nth. apply (map_nth_error (width edges)). rewrite (nth_error_nth' _ 0%nat) by (rewrite seq_length; exact Hk). f_equal. now rewrite seq_nth by exact Hk. }
  assert (Pw : forall k, (k < nb)%nat -> 0 < width edges k) by (intros k Hk; unfold width; specialize (Hinc k ltac:(lia)); lra).
  assert (K : exists image', (if intensity then convertToDifferential image (if intensity then map (width edges) (seq 0 nb) else []) (npix nside) (omega nside) else Ok image) = Ok image' /\ length image' = nb /\
     forall k, (k < nb)%nat -> nth_error image' k = Some (nside, map (fun v => v * (if intensity then 1 / (omega nside * width edges k) else 1)) (firstn (npix nside) (skipn (k * npix nside) data)))).
  { destruct intensity.
    - destruct (differential_ok (npix nside) (omega nside) image (map (width edges) (seq 0 nb))) as (im & E1 & L1 & P1).
      + rewrite map_length, seq_length, Li. lia.
      + intros w Hw. apply in_map_iff in Hw. destruct Hw as (k & <- & Hk). apply in_seq in Hk. specialize (Pw k ltac:(lia)). apply Rgt_not_eq. now apply Rmult_lt_0_compat.
      + intros k p Ep. assert (k < nb)%nat by (rewrite <- Li; apply nth_error_Some; congruence). rewrite Ei in Ep by assumption. injection Ep as <-. cbn [snd]. now apply Lp.
      + exists im. split; [exact E1|]. split; [now rewrite L1|]. intros k Hk. rewrite (P1 k _ (Ei k Hk)). rewrite map_length, seq_length. destruct (Nat.ltb_spec k nb); [|lia]. rewrite Nw by exact Hk. reflexivity.
    - exists image. split; [reflexivity|]. split; [exact Li|]. intros k Hk. rewrite (Ei k Hk). f_equal. f_equal. rewrite <- (map_id (firstn _ _)) at 1. apply map_ext. intros v. lra. }
  destruct K as (image' & Ek & Lk & Pk). rewrite Ek. cbn [obind].
  match goal with |- context [computeMapIntegrals ?h0] => destruct (ints_ok h0) as (h & Eh & Ih & F1 & F2 & F3 & F4 & F5 & F6) end.
  - split; cbn [h_image h_energies h_nside]; [rewrite map_length, seq_length; exact Lk|]. intros k plane Hp. assert (Hk : (k < nb)%nat) by (rewrite <- Lk; apply nth_error_Some; congruence).
    rewrite (Pk k Hk) in Hp. injection Hp as <-. split; [reflexivity|]. cbn [snd]. rewrite map_length. now apply Lp.
  - cbn [h_energies]. intros X. apply (f_equal (@length R)) in X. rewrite map_length, seq_length in X. cbn in X. lia.
  - cbn [h_nside h_image h_energies h_interp h_enforce h_omega] in *. exists h. split; [exact Eh|]. split.
    { split; [rewrite F2, F3, map_length, seq_length; exact Lk|]. intros k plane Hp. rewrite F2 in Hp. assert (Hk : (k < nb)%nat) by (rewrite <- Lk; apply nth_error_Some; congruence).
      rewrite (Pk k Hk) in Hp. injection Hp as <-. rewrite F1. split; [reflexivity|]. cbn [snd]. rewrite map_length. now apply Lp. }
    split; [exact Ih|]. rewrite F3, map_length, seq_length. split; [reflexivity|]. split.
    { intros k Hk. apply nth_error_nth. apply (map_nth_error (centre edges)). rewrite (nth_error_nth' _ 0%nat) by (rewrite seq_length; lia). f_equal. rewrite seq_nth by lia. reflexivity. }
    intros k i Hk Hi. assert (Hk' : (k < nb)%nat) by lia.
    exists (nth i (firstn (npix nside) (skipn (k * npix nside) data)) 0 * (if intensity then 1 / (omega nside * width edges k) else 1)). split.
    { eexists. rewrite F2. split; [exact (Pk k Hk')|]. cbn [snd]. apply (map_nth_error (fun v => v * (if intensity then 1 / (omega nside * width edges k) else 1))). apply nth_error_nth'. rewrite Lp by exact Hk'. exact Hi. }
    rewrite firstn_nth by exact Hi. rewrite skipn_nth. change (12 * nside * nside)%nat with (npix nside). fold (width edges k). fold (omega nside).
    specialize (Pw k Hk'). destruct intensity; [field; split; apply Rgt_not_eq; assumption|lra].
Qed.
Print Assumptions C81_counts.

Lemma file_shape nside cols energies interp enforce : (2 <= length cols)%nat -> energies <> [] -> (length energies <= length cols)%nat ->
  (forall c, In c cols -> length (snd c) = npix nside) ->
  exists h, of_file nside cols energies interp enforce = Ok h /\ integrated h /\ h_image h = map (fun c => (nside, snd c)) cols /\ h_energies h = energies /\ h_nside h = nside /\ h_interp h = interp /\ h_enforce h = enforce.
Proof.
  intros Hc Hne He Hl. unfold of_file.
  assert (K : forall cs acc, (forall c, In c cs -> length (snd c) = npix nside) -> mfold (fun (image : list (nat * list R)) (col : string * list R) => if (npix nside <? length (snd col))%nat then UB else Ok (image ++ [(nside, snd col)])) cs acc = Ok (acc ++ map (fun c => (nside, snd c)) cs)).
  { induction cs as [|c cs IH]; intros acc H; cbn [mfold map]; [now rewrite app_nil_r|]. rewrite (H c (or_introl eq_refl)), Nat.ltb_irrefl. cbn [obind]. rewrite IH by (intros; apply H; now right). now rewrite <- app_assoc. }
  rewrite K by exact Hl. cbn [obind app]. destruct (Nat.ltb_spec 1 (length cols)); [|lia].
  match goal with |- context [computeMapIntegrals ?h0] => destruct (ints_ok' h0) as (h & Eh & Ih & F1 & F2 & F3 & F4 & F5 & F6) end.
  - cbn [h_image h_energies h_nside]. now rewrite map_length.
  - cbn [h_image h_energies h_nside]. intros k plane Hp. destruct (nth_error cols k) as [c|] eqn:Ec; [|apply nth_error_None in Ec; assert (X : (length (map (fun c : string * list R => (nside, snd c)) cols) <= k)%nat) by (rewrite map_length; exact Ec); apply nth_error_None in X; congruence].
    rewrite (map_nth_error (fun c : string * list R => (nside, snd c)) _ _ Ec) in Hp. injection Hp as <-. split; [reflexivity|]. cbn [snd]. rewrite Hl by (eapply nth_error_In; exact Ec). reflexivity.
  - exact Hne.
  - exists h. split; [exact Eh|]. auto 10.
Qed.

(** From a file with as many columns as energies: the columns are the planes. *)
Theorem C81_file : forall nside cols energies interp enforce, (2 <= length cols)%nat -> length energies = length cols ->
  (forall c, In c cols -> length (snd c) = (12 * nside * nside)%nat) ->
  exists h, of_file nside cols energies interp enforce = Ok h /\ shaped h /\ integrated h /\ h_energies h = energies /\ h_interp h = interp /\ h_enforce h = enforce /\
  forall k name vs i v, nth_error cols k = Some (name, vs) -> nth_error vs i = Some v -> at_pixel h k i v.
Proof.
  intros nside cols energies interp enforce Hc He Hl. destruct (file_shape nside cols energies interp enforce Hc ltac:(intros ->; cbn in He; lia) ltac:(lia) Hl) as (h & E & I & Im & En & Ns & Hi & Hf).
  exists h. split; [exact E|]. split.
  { split; [rewrite Im, En, map_length; congruence|]. intros k plane Hp. rewrite Im in Hp. apply nth_error_In in Hp. apply in_map_iff in Hp. destruct Hp as (c & <- & Hc'). cbn. rewrite Ns. split; [reflexivity|]. exact (Hl c Hc'). }
  split; [exact I|]. split; [exact En|]. split; [exact Hi|]. split; [exact Hf|]. intros k name vs i v Ec Ev. exists (nside, vs). rewrite Im. split; [|exact Ev]. exact (map_nth_error (fun c : string * list R => (nside, snd c)) _ _ Ec).
Qed.
Print Assumptions C81_file.

Lemma weigh_shape h energy expo k plane : nth_error (h_image h) k = Some plane -> (k < length (h_energies h))%nat -> length (snd plane) = npix (fst plane) ->
  weigh h energy expo (Z.of_nat k) = Ok (mk_hpm (h_nside h) [(fst plane, map (fun i => match expo with None => nth i (snd plane) 0 | Some x => nth i (snd plane) 0 * x energy i end) (seq 0 (npix (fst plane))))]
    (h_energies h) (h_interp h) (h_enforce h) (h_omega h) (h_ints h) (h_total h)).
Proof.
  intros Ep Hk Lp. unfold weigh. rewrite not_refused by exact Hk. rewrite Nat2Z.id. unfold vec_get at 1. rewrite Ep. cbn [obind].
  rewrite (push_loop _ (fun i => match expo with None => nth i (snd plane) 0 | Some x => nth i (snd plane) 0 * x energy i end)); [reflexivity|].
  intros vs i Hi. rewrite (vec_get_ok (snd plane) i 0) by lia. reflexivity.
Qed.

(** Times the exposure: on every plane, the exposure at its energy, pixel by pixel; the integrals are those of the product. *)
Theorem C81_weighed : forall h expo, shaped h -> h_energies h <> [] ->
  exists h', weigh_all h expo = Ok h' /\ shaped h' /\ integrated h' /\ h_energies h' = h_energies h /\
  forall k e i v, nth_error (h_energies h) k = Some e -> at_pixel h k i v -> at_pixel h' k i (match expo with None => v | Some x => v * x e i end).
Proof.
  intros h expo (L & S) Hne. unfold weigh_all.
  set (g := fun k => (fst (nth k (h_image h) (0%nat, [])), map (fun i => match expo with None => nth i (snd (nth k (h_image h) (0%nat, []))) 0 | Some x => nth i (snd (nth k (h_image h) (0%nat, []))) 0 * x (nth k (h_energies h) 0%R) i end) (seq 0 (npix (fst (nth k (h_image h) (0%nat, []))))))).
  rewrite (push_loop _ g).
  2:{ intros ps k Hk. rewrite (vec_get_ok (h_energies h) k 0%R) by exact Hk. cbn [obind].
      assert (Ep : nth_error (h_image h) k = Some (nth k (h_image h) (0%nat, []))) by (apply nth_error_nth'; lia).
      destruct (S k _ Ep) as (F & Lp). rewrite (weigh_shape h _ expo k _ Ep Hk) by (rewrite F; exact Lp). reflexivity. }
  cbn [obind app].
  assert (Lg : forall k plane, nth_error (map g (seq 0 (length (h_energies h)))) k = Some plane -> (k < length (h_energies h))%nat /\ plane = g k).
  { intros k plane Hp. assert (Hk : (k < length (h_energies h))%nat). { assert (X : (k < length (map g (seq 0 (length (h_energies h)))))%nat) by (apply nth_error_Some; congruence). now rewrite map_length, seq_length in X. }
    split; [exact Hk|]. rewrite (map_nth_error g _ _ (nth_error_nth' (seq 0 (length (h_energies h))) 0%nat ltac:(rewrite seq_length; exact Hk))) in Hp. rewrite seq_nth in Hp by exact Hk. cbn [plus] in Hp. congruence. }
  assert (Sg : forall k, (k < length (h_energies h))%nat -> fst (g k) = h_nside h /\ length (snd (g k)) = (12 * h_nside h * h_nside h)%nat).
  { intros k Hk. assert (Ep : nth_error (h_image h) k = Some (nth k (h_image h) (0%nat, []))) by (apply nth_error_nth'; lia). destruct (S k _ Ep) as (F & _). unfold g. cbn [fst snd]. rewrite map_length, seq_length, F. split; reflexivity. }
  match goal with |- context [computeMapIntegrals ?h0] => destruct (ints_ok h0) as (h' & Eh & Ih & F1 & F2 & F3 & F4 & F5 & F6) end.
  - split; cbn [h_image h_energies h_nside]; [now rewrite map_length, seq_length|]. intros k plane Hp. destruct (Lg k plane Hp) as (Hk & ->). now apply Sg.
  - exact Hne.
  - cbn [h_image h_energies h_nside] in *. exists h'. split; [exact Eh|]. split.
    { split; [rewrite F2, F3; now rewrite map_length, seq_length|]. intros k plane Hp. rewrite F2 in Hp. destruct (Lg k plane Hp) as (Hk & ->). rewrite F1. now apply Sg. }
    split; [exact Ih|]. split; [exact F3|]. intros k e i v Ee (plane & Ep & Ev). assert (Hk : (k < length (h_energies h))%nat) by (apply nth_error_Some; congruence).
    exists (g k). rewrite F2. split.
    + rewrite (map_nth_error g _ _ (nth_error_nth' (seq 0 (length (h_energies h))) 0%nat ltac:(rewrite seq_length; exact Hk))). rewrite seq_nth by exact Hk. reflexivity.
    + unfold g. cbn [snd]. rewrite (nth_error_nth _ _ (0%nat, []) Ep). rewrite (nth_error_nth _ _ 0 Ee). destruct (S k plane Ep) as (F & Lp). assert (Hi : (i < npix (fst plane))%nat) by (rewrite F; change (npix (h_nside h)) with (12 * h_nside h * h_nside h)%nat; rewrite <- Lp; apply nth_error_Some; congruence).
      rewrite (map_nth_error _ _ _ (nth_error_nth' (seq 0 (npix (fst plane))) 0%nat ltac:(rewrite seq_length; exact Hi))). rewrite seq_nth by exact Hi. cbn [plus]. rewrite (nth_error_nth _ _ 0 Ev). reflexivity.
Qed.
Print Assumptions C81_weighed.

(** ** What does not hold *)

(** Every column of a file becomes a plane, also one with the numbers of the pixels: its numbers are the map at the first
    energy, and the last column is not used. *)
Theorem C81_columns_refuted : forall nside name pixels c1 c2 e1 e2 interp enforce,
  length pixels = (12 * nside * nside)%nat -> length (snd c1) = (12 * nside * nside)%nat -> length (snd c2) = (12 * nside * nside)%nat ->
  exists h, of_file nside [(name, pixels); c1; c2] [e1; e2] interp enforce = Ok h /\ h_energies h = [e1; e2] /\
  (forall i v, nth_error pixels i = Some v -> at_pixel h 0 i v) /\ (forall i v, nth_error (snd c1) i = Some v -> at_pixel h 1 i v).
Proof.
  intros nside name pixels c1 c2 e1 e2 interp enforce H0 H1 H2.
  destruct (file_shape nside [(name, pixels); c1; c2] [e1; e2] interp enforce ltac:(cbn; lia) ltac:(discriminate) ltac:(cbn; lia)) as (h & E & _ & Im & En & _).
  { intros c [<-|[<-|[<-|[]]]]; assumption. }
  exists h. split; [exact E|]. split; [exact En|]. split; intros i v Hi; eexists; rewrite Im; (split; [reflexivity|exact Hi]).
Qed.
Print Assumptions C81_columns_refuted.

(** A file with one column: the energy is taken to be 100, whatever the file says. *)
Theorem C81_single_file_refuted : forall nside col e interp enforce, length (snd col) = (12 * nside * nside)%nat ->
  exists h, of_file nside [col] [e] interp enforce = Ok h /\ h_energies h = [100].
Proof.
  intros nside col e interp enforce Hl. unfold of_file. cbn [mfold length]. change (12 * nside * nside)%nat with (npix nside) in *. rewrite Hl, Nat.ltb_irrefl. cbn [obind app Nat.ltb Nat.leb].
  match goal with |- context [computeMapIntegrals ?h0] => destruct (ints_ok h0) as (h & Eh & Ih & F1 & F2 & F3 & F4 & F5 & F6) end.
  - split; [reflexivity|]. intros [|k] plane H; [|destruct k; discriminate]. cbn in H. injection H as <-. split; [reflexivity|exact Hl].
  - discriminate.
  - exists h. split; [exact Eh|exact F3].
Qed.
Print Assumptions C81_single_file_refuted.

(** A map with one plane at any other energy than that of the plane: a read past the end. *)
Theorem C81_single_energy_refuted : forall {D} (pix : nat -> D -> nat) near h d e e0, shaped h -> h_energies h = [e0] -> h_enforce h = false -> 0 <= e -> e <> e0 ->
  (exists y, value_plane pix near h d 0 = Ok y) -> value pix near h d e = UB.
Proof.
  intros D pix near h d e e0 (L & S) En Hf He Ne (y & Ey). unfold value. destruct (Rltb_spec e 0); [lra|]. cbn [obind]. unfold check_energy. rewrite Hf. cbn [obind].
  unfold lower_plane. rewrite En. cbn [length Nat.ltb Nat.leb obind]. rewrite Ey. cbn [obind]. unfold vec_get. cbn [nth_error Z.to_nat obind].
  destruct (Reqb_spec e e0); [contradiction|]. unfold value_plane, refused. rewrite En. cbn. unfold vec_get. rewrite En in L. cbn in L. destruct (h_image h) as [|p [|q l]]; try discriminate. reflexivity.
Qed.
Print Assumptions C81_single_energy_refuted.

(** The number of planes is accepted as the index of a plane. *)
Theorem C81_index_refuted : forall {D} (pix : nat -> D -> nat) near h d, shaped h -> value_plane pix near h d (Z.of_nat (length (h_energies h))) = UB /\ forall i, pixelValue h i (Z.of_nat (length (h_energies h))) = UB.
Proof.
  intros D pix near h d (L & _). assert (E : nth_error (h_image h) (length (h_energies h)) = None) by (apply nth_error_None; lia).
  assert (Rf : refused h (Z.of_nat (length (h_energies h))) = false) by (unfold refused; apply orb_false_intro; apply Z.ltb_ge; lia).
  split; [|intros i]; unfold value_plane, pixelValue; rewrite Rf, Nat2Z.id; unfold vec_get; now rewrite E.
Qed.
Print Assumptions C81_index_refuted.

(** At the energy of a plane (but the last) its value is returned even if negative. *)
Theorem C81_tiny_refuted : forall {D} (pix : nat -> D -> nat) near h d k a b y, increasing (h_energies h) -> 0 < a -> nth_error (h_energies h) k = Some a -> nth_error (h_energies h) (S k) = Some b ->
  value_plane pix near h d (Z.of_nat k) = Ok y -> - (1 / 10 ^ 10) < y < 0 -> value pix near h d a = Ok y.
Proof.
  intros D pix near h d k a b y HI Ga Ea Eb Ey Hy. assert (Hab : a < b) by (apply (HI k); assumption).
  assert (PF : pair_for (h_energies h) a k a b) by (repeat split; auto; left; lra).
  rewrite (value_pair pix near h d a k a b y HI ltac:(lra) (or_intror (conj (Rle_refl a) (Rlt_le _ _ Hab))) PF Ey). destruct (Reqb_spec a a); [reflexivity|lra].
Qed.
Print Assumptions C81_tiny_refuted.

(** The map of one plane made by a convolution has the energies of all and the integrals from before: its second plane is
    read past the end. *)
Theorem C81_layer_refuted : forall {D} (pix : nat -> D -> nat) near h d energy expo k, shaped h -> (2 <= length (h_energies h))%nat -> (k < length (h_energies h))%nat ->
  exists h', weigh h energy expo (Z.of_nat k) = Ok h' /\ length (h_energies h') = length (h_energies h) /\ length (h_image h') = 1%nat /\ h_ints h' = h_ints h /\ h_total h' = h_total h /\ value_plane pix near h' d 1 = UB.
Proof.
  intros D pix near h d energy expo k (L & S) H2 Hk. destruct (nth_error (h_image h) k) as [plane|] eqn:Ep; [|apply nth_error_None in Ep; lia]. destruct (S k plane Ep) as (F & Lp).
  eexists. split; [apply (weigh_shape h energy expo k plane Ep Hk); rewrite F; exact Lp|]. cbn [h_energies h_image h_ints h_total length]. split; [reflexivity|]. split; [reflexivity|]. split; [reflexivity|]. split; [reflexivity|].
  unfold value_plane, refused. cbn [h_energies h_image]. destruct (Z.ltb_spec (Z.of_nat (length (h_energies h))) 1); [lia|]. cbn. reflexivity.
Qed.
Print Assumptions C81_layer_refuted.

(** The size of the pixels, in degrees, is compared with a radius in radians: the map is made finer for the convolution
    even if its pixels are small enough. *)
Theorem C81_units_refuted : forall h, 0 < h_omega h -> exists r68, pixel_size h <= 2 * (r68 / 3) /\ nside_used h r68 = (2 * h_nside h)%nat.
Proof.
  intros h Ho. pose proof PI_RGT_0 as P0. pose proof PI_4 as P4.
  assert (Ps : 0 < pixel_size h). { unfold pixel_size. apply Rmult_lt_0_compat; [|now apply Rinv_0_lt_compat]. apply Rmult_lt_0_compat; [now apply sqrt_lt_R0|lra]. }
  exists (3 / 2 * pixel_size h). split; [lra|]. unfold nside_used. destruct (Rltb_spec (2 * (3 / 2 * pixel_size h / 3 * PI / 180)) (pixel_size h)) as [X|X]; [reflexivity|]. exfalso. apply X.
  replace (2 * (3 / 2 * pixel_size h / 3 * PI / 180)) with (pixel_size h * (PI / 180)) by field. rewrite <- (Rmult_1_r (pixel_size h)) at 2. apply Rmult_lt_compat_l; lra.
Qed.
Print Assumptions C81_units_refuted.

Lemma pow_gt n : (n < 2 ^ n)%nat.
Proof. apply Nat.pow_gt_lin_r. lia. Qed.
Lemma pow_double m : (1 <= m -> 2 * m <= 2 ^ m)%nat.
Proof.
  intros Hm. induction m as [|m IH]; [lia|]. destruct m as [|m]; [cbn; lia|]. specialize (IH ltac:(lia)). rewrite (Nat.pow_succ_r' 2 (S m)). lia.
Qed.

(** Rebinning by two always fails. *)
Theorem C81_rebin_two_refuted : forall sub h average, shaped h -> h_energies h <> [] -> (2 <= h_nside h)%nat -> rebin sub h 2 average = Throw.
Proof.
  intros sub h average (L & S) Hne Hn. unfold rebin. cbn [Nat.leb].
  set (m := (h_nside h / 2)%nat). assert (Hm : (1 <= m)%nat) by (unfold m; apply Nat.div_le_lower_bound; lia).
  assert (Hd : (2 * m <= h_nside h < 2 * m + 2)%nat). { unfold m. pose proof (Nat.div_mod (h_nside h) 2 ltac:(lia)). pose proof (Nat.mod_upper_bound (h_nside h) 2 ltac:(lia)). lia. }
  destruct (Nat.eqb_spec m 0); [lia|]. cbn [andb]. destruct (h_energies h) as [|e es]; [congruence|]. cbn [length seq mfold]. destruct (Nat.ltb_spec 13 m); [reflexivity|].
  destruct (nth_error (h_image h) 0) as [plane|] eqn:E; [|apply nth_error_None in E; cbn in L; lia]. destruct (S 0%nat plane E) as (F & _). unfold vec_get at 1. rewrite E. cbn [obind].
  unfold import_degrade. rewrite F. pose proof (pow_double m Hm) as Pd.
  destruct (Nat.ltb_spec (2 ^ m) (h_nside h)) as [X|X]; cbn [negb orb]; [|reflexivity].
  assert (h_nside h = Datatypes.S (2 ^ m)) by lia. destruct (Nat.eqb_spec (h_nside h mod 2 ^ m) 0) as [Y|Y]; [|reflexivity]. exfalso.
  assert (2 <= 2 ^ m)%nat by lia. rewrite H0 in Y. replace (Datatypes.S (2 ^ m)) with (1 + 1 * 2 ^ m)%nat in Y by lia. rewrite Nat.mod_add in Y by lia. rewrite Nat.mod_small in Y by lia. discriminate.
Qed.
Print Assumptions C81_rebin_two_refuted.

(** Rebinning by any factor that divides nside never gives planes with nside over the factor; if it gives anything, the
    map keeps its nside, its solid angle and its integrals; the averages are made also if the sums are asked for. *)
Theorem C81_rebin_refuted : forall sub h factor average h' k plane, (1 < factor)%nat -> (1 < h_nside h)%nat -> shaped h -> rebin sub h factor average = Ok h' ->
  (k < length (h_energies h))%nat -> nth_error (h_image h') k = Some plane ->
  (fst plane <> h_nside h / factor)%nat /\ (fst plane < h_nside h')%nat /\ h_nside h' = h_nside h /\ h_omega h' = h_omega h /\ h_ints h' = h_ints h /\ rebin sub h factor (negb average) = Ok h'.
Proof.
  intros sub h factor average h' k plane Hf Hn (L & S) E Hk Hp. assert (E' : rebin sub h factor (negb average) = Ok h') by exact E. revert E. unfold rebin. destruct (Nat.leb_spec factor 1); [lia|].
  destruct (Nat.eqb_spec (h_nside h) 1) as [|_]; [lia|]. rewrite andb_false_r. set (m := if (h_nside h / factor =? 0)%nat then 1%nat else (h_nside h / factor)%nat).
  intros E. match type of E with obind ?x _ = _ => destruct x as [image| |] eqn:EI; try discriminate E end. cbn [obind] in E. injection E as <-. cbn [h_nside h_omega h_ints h_image] in *.
  assert (K : forall n im, (n <= length (h_energies h))%nat -> mfold (fun image k => if (13 <? m)%nat then Throw else obind (vec_get image k) (fun plane => obind (import_degrade sub (2 ^ m) plane) (fun p => vec_set image k p))) (seq 0 n) (h_image h) = Ok im ->
     length im = length (h_image h) /\ forall j p, nth_error im j = Some p -> if (j <? n)%nat then fst p = (2 ^ m)%nat /\ (2 ^ m < h_nside h)%nat else nth_error (h_image h) j = Some p).
  { induction n as [|n IH]; intros im Hn' Em.
    - cbn in Em. injection Em as <-. split; [reflexivity|]. intros j p Hj. exact Hj.
    - rewrite seq_S', mfold_snoc' in Em. cbn [plus] in Em. match type of Em with obind ?x _ = _ => destruct x as [im0| |] eqn:E0; try discriminate Em end. cbn [obind] in Em. destruct (IH im0 ltac:(lia) eq_refl) as (L0 & P0).
      destruct (13 <? m)%nat; [discriminate|]. unfold vec_get in Em. destruct (nth_error im0 n) as [pl|] eqn:En; [|discriminate]. cbn [obind] in Em. specialize (P0 n pl En) as Pn. rewrite Nat.ltb_irrefl in Pn. destruct (S n pl Pn) as (Fn & _).
      destruct (import_degrade sub (2 ^ m) pl) as [p'| |] eqn:Ed; try discriminate. cbn [obind] in Em.
      assert (Fp : fst p' = (2 ^ m)%nat /\ (2 ^ m < h_nside h)%nat).
      { revert Ed. unfold import_degrade. rewrite Fn. destruct (Nat.ltb_spec (2 ^ m) (h_nside h)) as [X|X]; cbn [negb orb]; [|discriminate]. destruct (h_nside h mod 2 ^ m =? 0)%nat; cbn [negb]; [|discriminate].
        intros Ed. match type of Ed with obind ?x _ = _ => destruct x as [vs| |]; try discriminate Ed end. cbn [obind] in Ed. injection Ed as <-. split; [reflexivity|exact X]. }
      assert (Hn0 : (n < length im0)%nat) by (apply nth_error_Some; congruence). rewrite (vec_set_ok im0 n p' Hn0) in Em. injection Em as <-. split; [now rewrite upd_length|]. intros j p Hj.
      destruct (Nat.eq_dec j n) as [->|Nj].
      + destruct (Nat.ltb_spec n (Datatypes.S n)); [|lia]. apply (nth_error_nth _ _ (0%nat, [])) in Hj. rewrite nth_upd_eq in Hj by exact Hn0. now subst p.
      + assert (Hj' : nth_error im0 j = Some p). { assert (Lj : (j < length im0)%nat) by (rewrite <- (upd_length im0 n p'); apply nth_error_Some; congruence). rewrite (nth_error_nth' im0 (0%nat, []) Lj). apply (nth_error_nth _ _ (0%nat, [])) in Hj. rewrite nth_upd_neq in Hj by congruence. now rewrite Hj. }
        specialize (P0 j p Hj'). destruct (Nat.ltb_spec j n), (Nat.ltb_spec j (Datatypes.S n)); try lia; exact P0. }
  destruct (K (length (h_energies h)) image (le_n _) EI) as (_ & P). specialize (P k plane Hp). destruct (Nat.ltb_spec k (length (h_energies h))); [|lia]. destruct P as (P1 & P2).
  rewrite P1. split; [|auto]. intros X. unfold m in X. destruct (Nat.eqb_spec (h_nside h / factor) 0) as [Z0|Z0]; [rewrite Z0 in X; discriminate|]. pose proof (pow_gt (h_nside h / factor)). lia.
Qed.
Print Assumptions C81_rebin_refuted.

(** ** Concrete cases *)
Definition hmap : hpm := mk_hpm 1 [(1%nat, repeat 4 12); (1%nat, repeat 1 12)] [100; 200] false true (omega 1) [] 0.
Example C81_case : shaped hmap /\ increasing (h_energies hmap) /\ pair_for (h_energies hmap) 150 0 100 200 /\ at_pixel hmap 1 5 1 /\
  value_plane (fun _ (d : nat) => d) (fun _ _ => []) hmap 3%nat 0 = Ok 4 /\ value (fun _ (d : nat) => d) (fun _ _ => []) hmap 3%nat 250 = Throw /\
  weights [(0%nat, 1 / 4); (1%nat, 3 / 4)].
Proof.
  split; [|split; [|split; [|split; [|split; [|split]]]]].
  - split; [reflexivity|]. intros [|[|k]] plane H; cbn in H; [injection H as <-|injection H as <-|destruct k; discriminate]; split; reflexivity.
  - intros [|k] a b Ha Hb; cbn in *; [injection Ha as <-; injection Hb as <-; lra|destruct k; discriminate].
  - split; [reflexivity|]. split; [reflexivity|]. split; left; lra.
  - eexists. split; reflexivity.
  - reflexivity.
  - apply (C81_enforced _ _ hmap 3%nat 250 100 200); try reflexivity; lra.
  - split; [|unfold total; cbn; lra]. repeat constructor; cbn; lra.
Qed.
(** A map of nside 4 rebinned by 4 should have nside 1: it gets planes of nside 2. *)
Definition hmap4 : hpm := mk_hpm 4 [(4%nat, repeat 1 192)] [100] false true (omega 4) [] 0.
Example C81_rebin_case : exists h' plane, rebin (fun _ _ _ => [0%nat]) hmap4 4 true = Ok h' /\ nth_error (h_image h') 0 = Some plane /\ fst plane = 2%nat /\ h_nside h' = 4%nat /\ pixelValue h' 191 0 = UB.
Proof. eexists. eexists. split; [reflexivity|]. split; [reflexivity|]. split; [reflexivity|]. split; reflexivity. Qed.

(** Proofs for PsfuProps.v: the maps. *)
From Verif Require Import Base AccumModel AccumProofs PsfuModel PsfuSpec PsfuProofs PsfuEst.
From Coq Require Import Reals List Lra Lia.
Import ListNotations.
Local Open Scope R_scope.

Lemma cell_lt n p k j : (k < n)%nat -> (j < p)%nat -> (k * p + j < n * p)%nat.
Proof. nia. Qed.
Lemma cell_inj p k j k' j' : (j < p)%nat -> (j' < p)%nat -> (k * p + j)%nat = (k' * p + j')%nat -> k = k' /\ j = j'.
Proof.
  intros Hj Hj' E. assert (k = k') by (apply (f_equal (fun a => a / p)%nat) in E; rewrite !Nat.div_add_l, !(Nat.div_small _ p) in E by lia; lia). subst. split; [reflexivity|lia].
Qed.

(** A list that holds [f k j] at k * p + j. *)
Definition holds (n p : nat) (f : nat -> nat -> R) (m : list R) : Prop :=
  length m = (n * p)%nat /\ forall k j, (k < n)%nat -> (j < p)%nat -> nth (k * p + j) m 0 = f k j.

Lemma holds_set n p f m k j v : holds n p f m -> (k < n)%nat -> (j < p)%nat ->
  exists m', vec_set m (k * p + j) v = Ok m' /\ holds n p (fun k' j' => if (k' =? k)%nat && (j' =? j)%nat then v else f k' j') m'.
Proof.
  intros [L H] Hk Hj. exists (upd m (k * p + j) v). split; [apply vec_set_ok; rewrite L; now apply cell_lt|].
  split; [now rewrite upd_length|]. intros k' j' Hk' Hj'.
  destruct (Nat.eqb_spec k' k) as [->|N]; cbn [andb].
  - destruct (Nat.eqb_spec j' j) as [->|N2].
    + apply nth_upd_eq. rewrite L. now apply cell_lt.
    + rewrite nth_upd_neq; [now apply H|]. intros E. apply cell_inj in E; try assumption. destruct E; congruence.
  - rewrite nth_upd_neq; [now apply H|]. intros E. apply cell_inj in E; try assumption. destruct E; congruence.
Qed.

Lemma holds_get n p f m k j : holds n p f m -> (k < n)%nat -> (j < p)%nat -> vec_get m (k * p + j) = Ok (f k j).
Proof. intros [L H] Hk Hj. rewrite (vec_get_ok m _ 0) by (rewrite L; now apply cell_lt). now rewrite H. Qed.

Lemma holds_get1 n f m k : holds n 1 f m -> (k < n)%nat -> vec_get m k = Ok (f k 0%nat).
Proof. intros H Hk. replace k with (k * 1 + 0)%nat at 1 by lia. apply (holds_get n 1); [exact H|exact Hk|lia]. Qed.

Lemma holds_ext n p f g m : holds n p f m -> (forall k j, (k < n)%nat -> (j < p)%nat -> f k j = g k j) -> holds n p g m.
Proof. intros [L H] E. split; [exact L|]. intros. rewrite H, E; auto. Qed.

Lemma holds_error n p f m k j : holds n p f m -> (k < n)%nat -> (j < p)%nat -> nth_error m (k * p + j) = Some (f k j).
Proof. intros [L H] Hk Hj. rewrite (nth_error_nth' m 0) by (rewrite L; now apply cell_lt). now rewrite H. Qed.

Lemma holds_self n p m : length m = (n * p)%nat -> holds n p (fun k j => nth (k * p + j) m 0) m.
Proof. intros L. split; auto. Qed.

Lemma resize_nil n (d : R) : vec_resize [] n d = repeat d n.
Proof. unfold vec_resize. rewrite firstn_nil. cbn [length app]. now rewrite Nat.sub_0_r. Qed.

Lemma holds_repeat n p : holds n p (fun _ _ => 0) (repeat 0 (n * p)).
Proof. split; [apply repeat_length|]. intros. apply nth_repeat. Qed.

Lemma nth_ok_vec (l : list R) k d : (k < length l)%nat -> vec_get l k = Ok (nth k l d).
Proof. apply vec_get_ok. Qed.

Section Maps.
  Variable Dir : Type.
  Variable difference : Dir -> Dir -> R.
  Variable psf : R -> R -> R.
  Variable integral : R -> R -> R.
  Variable peakValue : R -> R.
  Notation deg := (degrees Dir difference).
  Notation estimate := (psfValueEstimate Dir difference psf integral peakValue).
  Notation wcs_map := (makePointSourceMap_wcs Dir difference psf integral peakValue).

  Section Convolved.
    Variable cfg : config.
    Variable src : source Dir.
    Variable dm : data_map Dir.
    Variable energies : list R.
    Variable ex : R -> R.
    Variable kmin nbins : nat.
    Variable est : nat -> nat -> R.
    Variable offs : list (list R).
    Variable rad : R.
    Variable d : pixel Dir.
    Let dir := s_dir src.
    Let npix := length (d_pixels dm).
    Let P (j : nat) := nth j (d_pixels dm) d.
    Let E (k : nat) := nth k energies 0.
    Hypothesis Hk : (kmin + nbins <= length energies)%nat.
    Hypothesis Hv : c_verbose cfg = true -> (20 <= nbins * npix)%nat.
    Hypothesis Hest : forall k j, (kmin <= k < kmin + nbins)%nat -> (j < npix)%nat ->
      estimate cfg (E k) dir (P j) (d_coord dm dir) offs (d_size dm) = Ok (est k j).

    Definition factor (k : nat) : R := if s_use_exposure src then ex (E k) else 1.
    Definition val (k j : nat) : R := est k j * p_omega (P j).
    Definition inside (j : nat) : bool := Rleb (deg dir (p_dir (P j))) rad.
    Definition cell (k j : nat) : R := val k j * factor k.

    Definition body := fun (st : list R * list R) (jp : nat * pixel Dir) =>
        mfold (fun st k =>
          obind (vec_get energies k) (fun energy =>
          if c_verbose cfg && (nbins * npix / 20 =? 0)%nat then UB else
          obind (estimate cfg energy dir (snd jp) (d_coord dm dir) offs (d_size dm)) (fun psf_value =>
          let value := psf_value * p_omega (snd jp) in
          obind (vec_get (snd st) (k - kmin)) (fun mi =>
          obind (if Rleb (deg dir (p_dir (snd jp))) rad
                 then vec_set (snd st) (k - kmin) (mi + value) else Ok (snd st)) (fun mapIntegrals =>
          obind (if s_use_exposure src
                 then obind (vec_get (exposures (Some ex) [] energies) k) (fun x => Ok (value * x)) else Ok value) (fun value =>
          obind (vec_get (fst st) ((k - kmin) * npix + fst jp)) (fun old =>
          obind (vec_set (fst st) ((k - kmin) * npix + fst jp) (old + value)) (fun mm =>
          Ok (mm, mapIntegrals)))))))))
          (seq kmin nbins) st.

    Lemma body_ok base sums j st : (j < npix)%nat -> holds nbins npix base (fst st) -> holds nbins 1 (fun k _ => sums k) (snd st) ->
      exists st', body st (j, P j) = Ok st' /\
        holds nbins npix (fun k j' => if (j' =? j)%nat then base k j' + cell (kmin + k) j' else base k j') (fst st') /\
        holds nbins 1 (fun k _ => sums k + (if inside j then val (kmin + k) j else 0)) (snd st').
    Proof.
      intros Hj HB HS. unfold body.
      loop (fun i st => holds nbins npix (fun k j' => if (k <? i)%nat && (j' =? j)%nat then base k j' + cell (kmin + k) j' else base k j') (fst st) /\
        holds nbins 1 (fun k _ => if (k <? i)%nat then sums k + (if inside j then val (kmin + k) j else 0) else sums k) (snd st)) t Et It.
      - split; eapply holds_ext; try eassumption; intros; reflexivity.
      - intros i t Hi [H1 H2]. rewrite (vec_get_ok energies (kmin + i) 0) by lia. cbn [obind fst snd]. fold (E (kmin + i)).
        replace (c_verbose cfg && (nbins * npix / 20 =? 0)%nat) with false.
        2:{ destruct (c_verbose cfg); [|reflexivity]. specialize (Hv eq_refl). symmetry. apply Nat.eqb_neq. pose proof (Nat.div_le_mono 20 (nbins * npix) 20 ltac:(lia) Hv) as Q. change (20 / 20)%nat with 1%nat in Q. lia. }
        rewrite Hest by lia. cbn [obind]. fold (val (kmin + i) j). replace (kmin + i - kmin)%nat with i by lia.
        rewrite (holds_get1 _ _ _ i H2) by lia. cbn [obind].
        rewrite Nat.ltb_irrefl. fold (inside j).
        assert (HA : exists mi', (if inside j then vec_set (snd t) i (sums i + val (kmin + i) j) else Ok (snd t)) = Ok mi' /\
                     holds nbins 1 (fun k _ => if (k <? S i)%nat then sums k + (if inside j then val (kmin + k) j else 0) else sums k) mi').
        { destruct (inside j) eqn:Ein.
          - destruct (holds_set _ _ _ _ i 0 (sums i + val (kmin + i) j) H2 ltac:(lia) ltac:(lia)) as (m' & E1 & H').
            replace (i * 1 + 0)%nat with i in E1 by lia. exists m'. split; [exact E1|]. eapply holds_ext; [exact H'|].
            intros k j' Hk' Hj'. replace j' with 0%nat by lia. rewrite Nat.eqb_refl, andb_true_r.
            destruct (Nat.eqb_spec k i) as [->|Nk]; [now replace (i <? S i)%nat with true by (symmetry; apply Nat.ltb_lt; lia)|].
            destruct (Nat.ltb_spec k i); destruct (Nat.ltb_spec k (S i)); try lia; reflexivity.
          - exists (snd t). split; [reflexivity|]. eapply holds_ext; [exact H2|]. intros k j' Hk' _.
            cbv beta; destruct (Nat.ltb_spec k i); destruct (Nat.ltb_spec k (S i)); try lia; try reflexivity. cbv beta iota; lra. }
        destruct HA as (mi' & -> & H2'). cbn [obind].
        assert (HB' : (if s_use_exposure src then obind (vec_get (exposures (Some ex) [] energies) (kmin + i)) (fun x => Ok (val (kmin + i) j * x)) else Ok (val (kmin + i) j)) = Ok (cell (kmin + i) j)).
        { unfold cell, factor. destruct (s_use_exposure src); [|f_equal; ring]. cbn [exposures].
          rewrite (vec_get_ok _ _ (ex 0)) by (rewrite map_length; lia). rewrite map_nth. reflexivity. }
        rewrite HB'. cbn [obind]. rewrite (holds_get _ _ _ _ i j H1) by lia. cbn [obind]. rewrite Nat.ltb_irrefl. cbn [andb].
        destruct (holds_set _ _ _ _ i j (base i j + cell (kmin + i) j) H1 ltac:(lia) Hj) as (m' & -> & H'). cbn [obind].
        eexists; split; [reflexivity|]. cbn [fst snd]. split; [|exact H2'].
        eapply holds_ext; [exact H'|]. intros k j' Hk' Hj'. cbv beta.
        destruct (Nat.eqb_spec k i) as [->|Nk]; destruct (Nat.eqb_spec j' j) as [->|Nj]; cbn [andb];
          rewrite ?Nat.ltb_irrefl, ?andb_false_r, ?andb_true_r; try reflexivity.
        + now replace (i <? S i)%nat with true by (symmetry; apply Nat.ltb_lt; lia).
        + destruct (Nat.ltb_spec k i); destruct (Nat.ltb_spec k (S i)); try lia; reflexivity.
      - exists t. split; [exact Et|]. destruct It as [H1 H2]. split; eapply holds_ext; try eassumption; intros k j' Hk' Hj'; cbv beta;
          replace (k <? nbins)%nat with true by (symmetry; apply Nat.ltb_lt; lia); reflexivity.
    Qed.

    Lemma loop_ok mm0 : length mm0 = (nbins * npix)%nat ->
      exists st, mfold body (combine (seq 0 npix) (d_pixels dm)) (mm0, repeat 0 nbins) = Ok st /\
        holds nbins npix (fun k j => nth (k * npix + j) mm0 0 + cell (kmin + k) j) (fst st) /\
        holds nbins 1 (fun k _ => total_if inside npix (val (kmin + k))) (snd st).
    Proof.
      intros L. unfold npix at 1.
      destruct (mfold_pairs body (d_pixels dm) d
        (fun i st => holds nbins npix (fun k j => nth (k * npix + j) mm0 0 + (if (j <? i)%nat then cell (kmin + k) j else 0)) (fst st) /\
          holds nbins 1 (fun k _ => total_if inside i (val (kmin + k))) (snd st)) (mm0, repeat 0 nbins)) as (st & Est & H1 & H2).
      - split; cbn [fst snd].
        + eapply holds_ext; [apply holds_self; exact L|]. intros. cbv beta. cbn. lra.
        + apply holds_ext with (f := fun _ _ => 0); [|intros; cbv beta; unfold total_if; rewrite total_0; reflexivity]. replace nbins with (nbins * 1)%nat at 2 by lia. apply holds_repeat.
      - intros j st Hj [H1 H2]. destruct (body_ok _ _ j st Hj H1 H2) as (st' & E1 & H1' & H2'). exists st'. split; [exact E1|]. split.
        + eapply holds_ext; [exact H1'|]. intros k j' _ _. cbv beta.
          destruct (Nat.eqb_spec j' j); destruct (Nat.ltb_spec j' j); destruct (Nat.ltb_spec j' (S j)); try lia; lra.
        + eapply holds_ext; [exact H2'|]. intros k j' _ _. cbv beta. unfold total_if. rewrite total_S. reflexivity.
      - exists st. split; [exact Est|]. split; [|exact H2]. eapply holds_ext; [exact H1|]. intros k j _ Hj'. cbv beta. fold npix.
        now replace (j <? npix)%nat with true by (symmetry; apply Nat.ltb_lt; lia).
    Qed.
  End Convolved.

  Lemma corrections_ok energies rad sums npix f mm mi :
    holds (length energies) npix f mm -> holds (length energies) 1 (fun k _ => sums k) mi ->
    exists m, apply_corrections integral energies rad mi npix 0 mm = Ok m /\
      holds (length energies) npix (fun k j => f k j * (if Reqb (sums k) 0 then 0 else integral rad (nth k energies 0) / sums k)) m.
  Proof.
    intros HF HS. unfold apply_corrections. set (n := length energies) in *.
    set (c := fun k => if Reqb (sums k) 0 then 0 else integral rad (nth k energies 0) / sums k).
    destruct (mfold_pairs (fun mm ke =>
      let kk := fst ke in
      if (kk <? 0)%nat then UB else
      obind (vec_get mi (kk - 0)) (fun mi =>
      let correction := if Reqb mi 0 then 0 else integral rad (snd ke) / mi in
      mfold (fun mm j =>
        obind (vec_get mm ((kk - 0) * npix + j)) (fun v =>
        vec_set mm ((kk - 0) * npix + j) (v * correction))) (seq 0 npix) mm)) energies 0
      (fun i m => holds n npix (fun k j => if (k <? i)%nat then f k j * c k else f k j) m) mm) as (m & Em & Im).
    - exact HF.
    - intros k t Hk Ht. cbn [fst snd]. replace (k <? 0)%nat with false by (symmetry; apply Nat.ltb_ge; lia). rewrite Nat.sub_0_r.
      rewrite (holds_get1 _ _ _ k HS) by (fold n in Hk; lia). cbn [obind]. cbv zeta. fold (c k).
      loop (fun i m => holds n npix (fun k' j => if (k' <? k)%nat || ((k' =? k)%nat && (j <? i)%nat) then f k' j * c k' else f k' j) m) t' Et' It'.
      + eapply holds_ext; [exact Ht|]. intros k' j _ _. cbv beta. replace (j <? 0)%nat with false by (symmetry; apply Nat.ltb_ge; lia). now rewrite andb_false_r, orb_false_r.
      + intros i t' Hi H'. cbn [plus]. rewrite (holds_get _ _ _ _ k i H') by (fold n in Hk; lia). cbn [obind].
        rewrite Nat.ltb_irrefl, Nat.eqb_refl, Nat.ltb_irrefl. cbn [andb orb].
        destruct (holds_set _ _ _ _ k i (f k i * c k) H' ltac:(fold n in Hk; lia) Hi) as (m' & -> & Hm'). eexists; split; [reflexivity|].
        eapply holds_ext; [exact Hm'|]. intros k' j Hk' Hj. cbv beta.
        destruct (Nat.eqb_spec k' k) as [->|Nk]; destruct (Nat.eqb_spec j i) as [->|Nj]; cbn [andb orb]; rewrite ?Nat.ltb_irrefl, ?andb_false_r, ?orb_false_r; cbn [orb]; try reflexivity.
        * now replace (i <? S i)%nat with true by (symmetry; apply Nat.ltb_lt; lia).
        * destruct (Nat.ltb_spec j i); destruct (Nat.ltb_spec j (S i)); try lia; reflexivity.
      + exists t'. split; [exact Et'|]. eapply holds_ext; [exact It'|]. intros k' j Hk' Hj. cbv beta.
        replace (j <? npix)%nat with true by (symmetry; apply Nat.ltb_lt; lia). rewrite andb_true_r.
        destruct (Nat.ltb_spec k' k); destruct (Nat.eqb_spec k' k); destruct (Nat.ltb_spec k' (S k)); try lia; reflexivity.
    - exists m. split; [exact Em|]. eapply holds_ext; [exact Im|]. intros k j Hk _. cbv beta. fold n.
      now replace (k <? n)%nat with true by (symmetry; apply Nat.ltb_lt; lia).
  Qed.

  (** The whole function, with convolution. *)
  Lemma wcs_convolved cfg src dm energies ex mm0 kmin kmaxz offs rad est d :
    let kmax := last_layer kmaxz energies in let npix := length (d_pixels dm) in let nbins := (kmax - kmin)%nat in
    let corr := c_corrections cfg && d_within dm (s_dir src) (nth (length energies / 2) energies 0) in
    c_convolve cfg = true -> s_use_psf src = true -> (kmin <= kmax <= length energies)%nat -> (0 < length energies)%nat ->
    (c_verbose cfg = true -> (20 <= nbins * npix)%nat) ->
    createOffsetMap Dir difference (s_dir src) dm = Ok offs -> maxPsfRadius Dir difference (s_dir src) dm = Ok rad ->
    (forall k j, (kmin <= k < kmax)%nat -> (j < npix)%nat ->
      estimate cfg (nth k energies 0) (s_dir src) (nth j (d_pixels dm) d) (d_coord dm (s_dir src)) offs (d_size dm) = Ok (est k j)) ->
    exists st, holds nbins npix (fun k j => nth (k * npix + j) (vec_resize mm0 (nbins * npix) 0) 0 + cell src dm energies ex est d (kmin + k) j) (fst st) /\
      holds nbins 1 (fun k _ => total_if (inside src dm rad d) npix (val dm est d (kmin + k))) (snd st) /\
      wcs_map cfg src dm energies (Some ex) [] mm0 kmin kmaxz =
        if corr then apply_corrections integral energies rad (snd st) npix kmin (fst st) else Ok (fst st).
  Proof.
    intros kmax npix nbins corr Hc Hu Hk Hn Hv Ho Hr He.
    destruct (loop_ok cfg src dm energies ex kmin nbins est offs rad d ltac:(unfold nbins; lia) Hv ltac:(intros; apply He; [unfold nbins in *; lia|assumption])
      (vec_resize mm0 (nbins * npix) 0) (vec_resize_length _ _ _)) as (st & Est & H1 & H2).
    exists st. split; [exact H1|]. split; [exact H2|]. unfold makePointSourceMap_wcs. fold kmax.
    replace (kmax <? kmin)%nat with false by (symmetry; apply Nat.ltb_ge; lia). rewrite Ho. cbn [obind]. rewrite Hc, Hu. cbn [andb].
    replace (if c_corrections cfg then obind (vec_at energies (length energies / 2)) (fun e => Ok (d_within dm (s_dir src) e)) else Ok false) with (Ok corr).
    2:{ unfold corr. destruct (c_corrections cfg); [|reflexivity]. unfold vec_at. rewrite (nth_error_nth' energies 0) by (apply Nat.div_lt; lia). reflexivity. }
    cbn [obind]. rewrite Hr. cbn [obind]. fold nbins npix. fold (body cfg src dm energies ex kmin nbins offs rad).
    change (mfold (body cfg src dm energies ex kmin nbins offs rad) (combine (seq 0 npix) (d_pixels dm)) (vec_resize mm0 (nbins * npix) 0, repeat 0 nbins) = Ok st) in Est.
    unfold body in Est. fold npix in Est. rewrite Est. cbn [obind]. reflexivity.
  Qed.

  (** ** Without convolution *)

  Lemma point_layers (n npix ipix kmin : nat) (g : nat -> outcome R) (v : nat -> R) f mm : holds n npix f mm -> (ipix < npix)%nat ->
    (forall k, (kmin <= k < kmin + n)%nat -> g k = Ok (v k)) ->
    exists m, mfold (fun mm k => obind (g k) (fun v => vec_set mm ((k - kmin) * npix + ipix) v)) (seq kmin n) mm = Ok m /\
      holds n npix (fun k j => if (j =? ipix)%nat then v (kmin + k)%nat else f k j) m.
  Proof.
    intros H Hi Hg. loop (fun i m => holds n npix (fun k j => if (k <? i)%nat && (j =? ipix)%nat then v (kmin + k)%nat else f k j) m) t Et It.
    - exact H.
    - intros i t Hin Ht. rewrite Hg by lia. cbn [obind]. replace (kmin + i - kmin)%nat with i by lia.
      destruct (holds_set _ _ _ _ i ipix (v (kmin + i)%nat) Ht Hin Hi) as (m' & -> & H'). eexists; split; [reflexivity|].
      eapply holds_ext; [exact H'|]. intros k j Hk Hj. cbv beta.
      destruct (Nat.eqb_spec k i) as [->|Nk]; destruct (Nat.eqb_spec j ipix) as [->|Nj]; cbn [andb]; rewrite ?andb_false_r, ?andb_true_r; try reflexivity.
      + now replace (i <? S i)%nat with true by (symmetry; apply Nat.ltb_lt; lia).
      + destruct (Nat.ltb_spec k i); destruct (Nat.ltb_spec k (S i)); try lia; reflexivity.
    - exists t. split; [exact Et|]. eapply holds_ext; [exact It|]. intros k j Hk _. cbv beta. now replace (k <? n)%nat with true by (symmetry; apply Nat.ltb_lt; lia).
  Qed.

  Lemma exposure_at ex energies k : (k < length energies)%nat -> vec_get (exposures (Some ex) [] energies) k = Ok (ex (nth k energies 0)).
  Proof. intros H. cbn [exposures]. rewrite (vec_get_ok _ _ (ex 0)) by (now rewrite map_length). now rewrite map_nth. Qed.

  Lemma wcs_point cfg src dm energies ex mm0 kmin kmaxz (d : pixel Dir) :
    let kmax := last_layer kmaxz energies in let npix := length (d_pixels dm) in let nbins := (kmax - kmin)%nat in
    c_convolve cfg && s_use_psf src = false -> (kmin <= kmax <= length energies)%nat ->
    length (d_pixels dm) = (d_naxis1 dm * d_naxis2 dm)%nat ->
    forall c, find_pixel Dir difference (d_pixels dm) (s_dir src) = Ok (Some c) -> (c < npix)%nat ->
    exists m, wcs_map cfg src dm energies (Some ex) [] mm0 kmin kmaxz = Ok m /\
      holds nbins npix (fun k j => if (j =? c)%nat then (if s_use_exposure src then ex (nth (kmin + k) energies 0) else 1)
                                   else nth (k * npix + j) (vec_resize mm0 (nbins * npix) 0) 0) m.
  Proof.
    intros kmax npix nbins Hc Hk L c Hf Hcn. destruct (createOffsetMap_ok Dir difference (s_dir src) dm d L) as (z & Ez & _).
    unfold makePointSourceMap_wcs. fold kmax. replace (kmax <? kmin)%nat with false by (symmetry; apply Nat.ltb_ge; lia). rewrite Ez. cbn [obind]. rewrite Hc, Hf. cbn [obind].
    fold nbins npix.
    apply (point_layers nbins npix c kmin (fun k => if s_use_exposure src then vec_get (exposures (Some ex) [] energies) k else Ok 1)
      (fun k => if s_use_exposure src then ex (nth k energies 0) else 1)); [|exact Hcn|].
    - apply holds_self, vec_resize_length.
    - intros k Hk'. destruct (s_use_exposure src); [|reflexivity]. apply exposure_at. unfold nbins in *; lia.
  Qed.

  Lemma wcs_point_none cfg src dm energies ex mm0 kmin kmaxz (d : pixel Dir) :
    let kmax := last_layer kmaxz energies in let npix := length (d_pixels dm) in let nbins := (kmax - kmin)%nat in
    c_convolve cfg && s_use_psf src = false -> (kmin <= kmax <= length energies)%nat ->
    length (d_pixels dm) = (d_naxis1 dm * d_naxis2 dm)%nat ->
    find_pixel Dir difference (d_pixels dm) (s_dir src) = Ok None ->
    wcs_map cfg src dm energies (Some ex) [] mm0 kmin kmaxz = Ok (vec_resize mm0 (nbins * npix) 0).
  Proof.
    intros kmax npix nbins Hc Hk L Hf. destruct (createOffsetMap_ok Dir difference (s_dir src) dm d L) as (z & Ez & _).
    unfold makePointSourceMap_wcs. fold kmax. replace (kmax <? kmin)%nat with false by (symmetry; apply Nat.ltb_ge; lia). rewrite Ez. cbn [obind]. rewrite Hc, Hf. reflexivity.
  Qed.

  (** ** HEALPix *)

  Lemma fine_nonneg g energy d p v : fine_mean psf g energy d p = Ok v -> 0 <= v.
  Proof.
    unfold fine_mean. destruct (Nat.eqb_spec (length (g_fine g d p)) 0) as [E|N]; [discriminate|]. intros H. injection H as <-.
    apply Rmult_le_pos; [|left; apply Rinv_0_lt_compat, lt_0_INR; lia].
    enough (H : forall l a, 0 <= a -> 0 <= fold_left (fun sum s => sum + Rmax (psf energy s) 0) l a) by (apply H; lra).
    induction l as [|s l IH]; intros a Ha; [exact Ha|]. cbn. apply IH. pose proof (Rmax_r (psf energy s) 0). lra.
  Qed.

  Lemma assign_all (w : nat -> outcome R) (v : nat -> R) l hp : (forall p, In p l -> w p = Ok (v p) /\ (p < length hp)%nat) ->
    exists hp', mfold (fun hp p => obind (w p) (vec_set hp p)) l hp = Ok hp' /\ length hp' = length hp /\
      forall p, (p < length hp)%nat -> nth p hp' 0 = if existsb (Nat.eqb p) l then v p else nth p hp 0.
  Proof.
    revert hp. induction l as [|a l IH]; intros hp H; [exists hp; cbn; auto|].
    destruct (H a (or_introl eq_refl)) as [Ea La]. cbn [mfold]. rewrite Ea. cbn [obind]. rewrite vec_set_ok by assumption. cbn [obind].
    destruct (IH (upd hp a (v a))) as (hp' & E & L & N).
    - intros p Hp. rewrite upd_length. apply H. now right.
    - rewrite upd_length in *. exists hp'. split; [exact E|]. split; [exact L|]. intros p Hp. rewrite N by assumption. cbn [existsb].
      destruct (existsb (Nat.eqb p) l) eqn:Ee; [now rewrite orb_true_r|]. rewrite orb_false_r.
      destruct (Nat.eqb_spec p a) as [->|Np]; [now apply nth_upd_eq|]. apply nth_upd_neq. congruence.
  Qed.

  Lemma existsb_In p l : existsb (Nat.eqb p) l = true <-> In p l.
  Proof. rewrite existsb_exists. split; [intros (x & Hx & E); apply Nat.eqb_eq in E; now subst|intros H; exists p; split; [exact H|apply Nat.eqb_refl]]. Qed.

  (** The map before normalisation. *)
  Definition raw (g : psf_grid) (near centre : nat -> R) (energy : R) (p : nat) : R :=
    if (p =? g_centre g)%nat then centre p
    else if existsb (Nat.eqb p) (g_disc g) then
      (if existsb (Nat.eqb p) (g_neighbours g) then near p else Rmax (psf energy (g_sep g p)) 0)
    else 0.

  Lemma refDir_ok g radius energy near centre :
    (forall p, In p (g_disc g) -> (p < g_npix g)%nat) -> (g_centre g < g_npix g)%nat ->
    (forall p, In p (g_disc g) -> fine_mean psf g energy (Nat.min (13 - g_order g) 3) p = Ok (near p)) ->
    fine_mean psf g energy (Nat.min (13 - g_order g) 6) (g_centre g) = Ok (centre (g_centre g)) ->
    total (g_npix g) (raw g near centre energy) <> 0 ->
    exists m, fillMapWithPSF_refDir psf integral g radius energy = Ok m /\ length m = g_npix g /\
      forall p, (p < g_npix g)%nat -> nth_error m p = Some (raw g near centre energy p / total (g_npix g) (raw g near centre energy) * integral (Rmin radius 15) energy).
  Proof.
    intros Hd Hc Hn Hcc Ht. unfold fillMapWithPSF_refDir.
    set (others := filter (fun p => negb (p =? g_centre g)%nat && negb (existsb (Nat.eqb p) (g_neighbours g))) (g_disc g)).
    set (nears := filter (fun p => negb (p =? g_centre g)%nat && existsb (Nat.eqb p) (g_neighbours g)) (g_disc g)).
    destruct (assign_all (fun p => Ok (Rmax (psf energy (g_sep g p)) 0)) (fun p => Rmax (psf energy (g_sep g p)) 0) others (repeat 0 (g_npix g))) as (h1 & E1 & L1 & N1).
    { intros p Hp. split; [reflexivity|]. rewrite repeat_length. apply Hd. unfold others in Hp. apply filter_In in Hp. tauto. }
    rewrite repeat_length in *. cbn [obind] in E1. rewrite E1. cbn [obind].
    destruct (assign_all (fine_mean psf g energy (Nat.min (13 - g_order g) 3)) near nears h1) as (h2 & E2 & L2 & N2).
    { intros p Hp. unfold nears in Hp. apply filter_In in Hp. split; [apply Hn; tauto|rewrite L1; apply Hd; tauto]. }
    rewrite E2. cbn [obind]. rewrite Hcc. cbn [obind]. rewrite vec_set_ok by lia. cbn [obind].
    set (h3 := upd h2 (g_centre g) (centre (g_centre g))).
    assert (L3 : length h3 = g_npix g) by (unfold h3; rewrite upd_length; lia).
    assert (N3 : forall p, (p < g_npix g)%nat -> nth p h3 0 = raw g near centre energy p).
    { intros p Hp. unfold h3, raw. destruct (Nat.eqb_spec p (g_centre g)) as [->|Np]; [apply nth_upd_eq; lia|].
      rewrite nth_upd_neq by congruence. rewrite N2 by lia. rewrite N1 by lia. rewrite nth_repeat.
      assert (X : forall b, existsb (Nat.eqb p) (filter (fun p => negb (p =? g_centre g)%nat && b p) (g_disc g)) = existsb (Nat.eqb p) (g_disc g) && b p).
      { intros b. apply Bool.eq_iff_eq_true. rewrite andb_true_iff, !existsb_In, filter_In, andb_true_iff, negb_true_iff, Nat.eqb_neq. tauto. }
      unfold nears, others. rewrite (X (fun p => existsb (Nat.eqb p) (g_neighbours g))), (X (fun p => negb (existsb (Nat.eqb p) (g_neighbours g)))).
      destruct (existsb (Nat.eqb p) (g_disc g)), (existsb (Nat.eqb p) (g_neighbours g)); reflexivity. }
    assert (S3 : fold_left Rplus h3 0 = total (g_npix g) (raw g near centre energy)).
    { rewrite <- total_list, L3. apply total_ext. exact N3. }
    assert (HN : INR (g_npix g) <> 0) by (apply not_0_INR; lia).
    rewrite S3. replace (total (g_npix g) (raw g near centre energy) / INR (g_npix g) * INR (g_npix g)) with (total (g_npix g) (raw g near centre energy)) by (field; exact HN).
    destruct (Reqb_spec (total (g_npix g) (raw g near centre energy)) 0) as [C|_]; [contradiction|].
    eexists; split; [reflexivity|]. split; [now rewrite map_length|]. intros p Hp. rewrite nth_error_map.
    rewrite (nth_error_nth' h3 0) by lia. cbn [option_map]. rewrite N3 by assumption. f_equal. field. exact Ht.
  Qed.

  Lemma hpx_convolved cfg src (hm : hpx_map Dir) g crad energies ex mm0 kmin kmaxz (M : nat -> nat -> R) :
    let kmax := last_layer kmaxz energies in let npix := length (h_global hm) in let nbins := (kmax - kmin)%nat in
    c_convolve cfg = true -> s_use_psf src = true -> (kmin <= kmax <= length energies)%nat ->
    (forall k, (kmin <= k < kmax)%nat -> exists m, fillMapWithPSF_refDir psf integral g (crad (nth k energies 0)) (nth k energies 0) = Ok m /\
       forall i, (i < npix)%nat -> nth_error m (nth i (h_global hm) 0%nat) = Some (M k i)) ->
    exists m, makePointSourceMap_healpix Dir psf integral cfg src hm g crad energies (Some ex) [] mm0 kmin kmaxz = Ok (Some m) /\
      holds nbins npix (fun k i => M (kmin + k)%nat i * (if s_use_exposure src then ex (nth (kmin + k) energies 0) else 1)) m.
  Proof.
    intros kmax npix nbins Hc Hu Hk HM. unfold makePointSourceMap_healpix. fold kmax. replace (kmax <? kmin)%nat with false by (symmetry; apply Nat.ltb_ge; lia).
    rewrite Hc, Hu. cbn [andb]. fold npix nbins.
    set (F := fun k i => M (kmin + k)%nat i * (if s_use_exposure src then ex (nth (kmin + k) energies 0) else 1)).
    set (mm := vec_resize mm0 (nbins * npix) 0). set (old := fun k j => nth (k * npix + j) mm 0).
    loop (fun i m => holds nbins npix (fun k j => if (k <? i)%nat then F k j else old k j) m) t Et It.
    - apply (holds_ext nbins npix old); [|reflexivity]. apply holds_self, vec_resize_length.
    - intros k t Hkn Ht. rewrite (vec_get_ok energies _ 0) by (unfold nbins in *; lia). cbn [obind].
      destruct (HM (kmin + k)%nat ltac:(unfold nbins in *; lia)) as (hp & -> & Hh). cbn [obind].
      loop (fun i m => holds nbins npix (fun k' j => if (k' <? k)%nat || ((k' =? k)%nat && (j <? i)%nat) then F k' j else old k' j) m) t' Et' It'.
      + eapply holds_ext; [exact Ht|]. intros k' j _ _. cbv beta. replace (j <? 0)%nat with false by (symmetry; apply Nat.ltb_ge; lia). now rewrite andb_false_r, orb_false_r.
      + intros i t' Hi H'. cbn [plus]. rewrite (vec_get_ok (h_global hm) i 0%nat) by assumption. cbn [obind].
        unfold vec_get at 1. rewrite Hh by assumption. cbn [obind].
        assert (HF : (if s_use_exposure src then obind (vec_get (exposures (Some ex) [] energies) (kmin + k)) (fun x => Ok (M (kmin + k)%nat i * x)) else Ok (M (kmin + k)%nat i)) = Ok (F k i)).
        { unfold F. destruct (s_use_exposure src); [|f_equal; ring]. rewrite exposure_at by (unfold nbins in *; lia). reflexivity. }
        rewrite HF. cbn [obind]. replace (kmin + k - kmin)%nat with k by lia.
        destruct (holds_set _ _ _ _ k i (F k i) H' Hkn Hi) as (m' & -> & Hm'). eexists; split; [reflexivity|].
        eapply holds_ext; [exact Hm'|]. intros k' j Hk' Hj. cbv beta.
        destruct (Nat.eqb_spec k' k) as [->|Nk]; destruct (Nat.eqb_spec j i) as [->|Nj]; cbn [andb orb]; rewrite ?Nat.ltb_irrefl, ?andb_false_r, ?orb_false_r; cbn [orb]; try reflexivity.
        * now replace (i <? S i)%nat with true by (symmetry; apply Nat.ltb_lt; lia).
        * destruct (Nat.ltb_spec j i); destruct (Nat.ltb_spec j (S i)); try lia; reflexivity.
      + exists t'. split; [exact Et'|]. eapply holds_ext; [exact It'|]. intros k' j Hk' Hj. cbv beta.
        replace (j <? npix)%nat with true by (symmetry; apply Nat.ltb_lt; lia). rewrite andb_true_r.
        destruct (Nat.ltb_spec k' k); destruct (Nat.eqb_spec k' k); destruct (Nat.ltb_spec k' (S k)); try lia; reflexivity.
    - rewrite Et. cbn [obind]. exists t. split; [reflexivity|]. eapply holds_ext; [exact It|]. intros k j Hk' _. cbv beta.
      now replace (k <? nbins)%nat with true by (symmetry; apply Nat.ltb_lt; lia).
  Qed.

  Lemma hpx_point cfg src (hm : hpx_map Dir) g crad energies ex mm0 kmin kmaxz c :
    let kmax := last_layer kmaxz energies in let npix := length (h_global hm) in let nbins := (kmax - kmin)%nat in
    c_convolve cfg && s_use_psf src = false -> (kmin <= kmax <= length energies)%nat -> h_local hm (h_pixel hm (s_dir src)) = Some c -> (c < npix)%nat ->
    exists m, makePointSourceMap_healpix Dir psf integral cfg src hm g crad energies (Some ex) [] mm0 kmin kmaxz = Ok (Some m) /\
      holds nbins npix (fun k j => if (j =? c)%nat then h_omega hm * (if s_use_exposure src then ex (nth (kmin + k) energies 0) else 1)
                                   else nth (k * npix + j) (vec_resize mm0 (nbins * npix) 0) 0) m.
  Proof.
    intros kmax npix nbins Hc Hk Hl Hcn. unfold makePointSourceMap_healpix. fold kmax. replace (kmax <? kmin)%nat with false by (symmetry; apply Nat.ltb_ge; lia).
    rewrite Hc, Hl. fold npix nbins.
    destruct (point_layers nbins npix c kmin (fun k => if s_use_exposure src then obind (vec_get (exposures (Some ex) [] energies) k) (fun x => Ok (h_omega hm * x)) else Ok (h_omega hm))
      (fun k => h_omega hm * (if s_use_exposure src then ex (nth k energies 0) else 1)) _ (vec_resize mm0 (nbins * npix) 0) (holds_self _ _ _ (vec_resize_length _ _ _)) Hcn) as (m & Em & Hm).
    - intros k Hk'. destruct (s_use_exposure src); [|f_equal; ring]. rewrite exposure_at by (unfold nbins in *; lia). reflexivity.
    - rewrite Em. cbn [obind]. exists m. split; [reflexivity|exact Hm].
  Qed.
End Maps.

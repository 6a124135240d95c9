(** For C79/C179. *)
From Coq Require Import Reals Lra String List Bool Lia.
From Verif Require Import Base AccumModel AccumProofs EvtModel EvtSpec CmapProofs CspModel CspSpec.
Import ListNotations.
Local Open Scope nat_scope.

Lemma total_app a b : total (a ++ b) = (total a + total b)%R.
Proof. unfold total. induction a as [|x a IH]; cbn [app fold_right]; [lra|rewrite IH; lra]. Qed.

Lemma total_cons x l : total (x :: l) = (x + total l)%R.
Proof. reflexivity. Qed.

Lemma vec_at_ok {A} (l : list A) i d : i < length l -> vec_at l i = Ok (nth i l d).
Proof. intros H. unfold vec_at. now rewrite (nth_error_nth' l d H). Qed.

Lemma push_ok {A B} (h : list B -> A -> outcome (list B)) (g : A -> B) l : forall acc,
  (forall acc a, In a l -> h acc a = Ok (acc ++ [g a])) -> mfold h l acc = Ok (acc ++ map g l).
Proof.
  induction l as [|a l IH]; intros acc H; cbn [mfold map]; [now rewrite app_nil_r|].
  rewrite (H acc a (or_introl eq_refl)). cbn [obind]. rewrite IH by (intros; apply H; now right). now rewrite <- app_assoc.
Qed.

Lemma collect_ok {A B} (f : A -> outcome B) (g : A -> B) l : (forall a, In a l -> f a = Ok (g a)) -> collect f l = Ok (map g l).
Proof.
  intros H. unfold collect. rewrite (push_ok _ g) by (intros acc a I; now rewrite (H a I)). reflexivity.
Qed.

Lemma per_bin_ok eb f : per_bin eb f = Ok (map (fun k => f (nth k eb 0%R) (nth (S k) eb 0%R)) (seq 0 (length eb - 1))).
Proof.
  unfold per_bin. rewrite (push_ok _ (fun k => f (nth k eb 0%R) (nth (S k) eb 0%R))).
  - reflexivity.
  - intros acc k H. apply in_seq in H. rewrite (vec_at_ok eb k 0%R) by lia. cbn [obind].
    rewrite (vec_at_ok eb (k + 1) 0%R) by lia. cbn [obind]. now rewrite Nat.add_1_r.
Qed.

Lemma map_values eb f : binned_values eb f (map (fun k => f (nth k eb 0%R) (nth (S k) eb 0%R)) (seq 0 (length eb - 1))).
Proof.
  split; [now rewrite map_length, seq_length|]. intros k H.
  rewrite nth_indep with (d' := f (nth 0 eb 0%R) (nth (S 0) eb 0%R)) by (rewrite map_length, seq_length; lia).
  rewrite (map_nth (fun k => f (nth k eb 0%R) (nth (S k) eb 0%R))), seq_nth by lia. reflexivity.
Qed.

Lemma values_unique eb f l l' : binned_values eb f l -> binned_values eb f l' -> l = l'.
Proof.
  intros (L & H) (L' & H'). apply (list_ext_nth _ _ 0%R); [congruence|]. intros i Hi. rewrite H, H' by lia. reflexivity.
Qed.

Lemma add_component_ok tot comp : length tot = length comp -> exists r, add_component tot comp = Ok r /\ length r = length tot /\
  forall j, (nth j r 0 = nth j tot 0 + nth j comp 0)%R.
Proof.
  intros L. unfold add_component.
  match goal with |- context [mfold ?f _ _] => set (step := f) end.
  assert (K : forall m, m <= length comp -> exists r, mfold step (seq 0 m) tot = Ok r /\ length r = length tot /\
    forall j, (nth j r 0 = nth j tot 0 + (if j <? m then nth j comp 0 else 0))%R).
  { induction m as [|m IH]; intros Hm.
    - exists tot. split; [reflexivity|]. split; [reflexivity|]. intros j. cbn. lra.
    - destruct IH as (r & E & Lr & Hr); [lia|]. rewrite seq_S', mfold_snoc', E. cbn [obind]. unfold step.
      rewrite (vec_get_ok r m 0%R) by lia. cbn [obind]. rewrite (vec_get_ok comp m 0%R) by lia. cbn [obind].
      rewrite vec_set_ok by lia. eexists. split; [reflexivity|]. rewrite upd_length. split; [exact Lr|]. intros j.
      destruct (Nat.eq_dec j m) as [-> | Hj].
      + rewrite nth_upd_eq by lia. rewrite Hr. rewrite Nat.ltb_irrefl. assert (T : (m <? S m) = true) by (apply Nat.ltb_lt; lia). rewrite T. lra.
      + rewrite nth_upd_neq by lia. rewrite Hr. f_equal.
        destruct (Nat.ltb_spec j m), (Nat.ltb_spec j (S m)); try reflexivity; lia. }
  destruct (K (length comp) (le_n _)) as (r & E & Lr & Hr). exists r. split; [exact E|]. split; [exact Lr|]. intros j. rewrite Hr. f_equal.
  destruct (Nat.ltb_spec j (length comp)); [reflexivity|]. now rewrite nth_overflow.
Qed.

Lemma add_all_ok (get : string -> outcome (list R)) (v : string -> list R) ns : forall s0,
  (forall n, In n ns -> get n = Ok (v n) /\ length (v n) = length s0) ->
  exists r, mfold (fun s n => obind (get n) (fun comp => add_component s comp)) ns s0 = Ok r /\ length r = length s0 /\
    forall j, (nth j r 0 = nth j s0 0 + total (map (fun n => nth j (v n) 0) ns))%R.
Proof.
  induction ns as [|n ns IH]; intros s0 H.
  - exists s0. split; [reflexivity|]. split; [reflexivity|]. intros j. cbn. lra.
  - destruct (H n (or_introl eq_refl)) as (E & L). cbn [mfold]. rewrite E. cbn [obind].
    destruct (add_component_ok s0 (v n)) as (r & Er & Lr & Hr); [now symmetry|]. rewrite Er. cbn [obind].
    destruct (IH r) as (r' & E' & L' & H').
    { intros x Hx. rewrite Lr. apply H. now right. }
    exists r'. split; [exact E'|]. split; [congruence|]. intros j. rewrite H', Hr. cbn [map]. unfold total. cbn [fold_right]. lra.
Qed.

(** *** Bounds *)
Lemma bounds_ok emin emax n : (0 < emin)%R -> (0 < emax)%R -> 2 <= n ->
  exists eb, setEbounds (mk_spectra false []) emin emax n = Ok (mk_spectra false eb) /\ log_bounds emin emax n eb /\
   forall k, k < n -> nth k eb 0%R = (emin * exp (INR k * (ln (emax / emin) / INR (n - 1))))%R.
Proof.
  intros H1 H2 Hn. destruct n as [|n]; [lia|]. unfold setEbounds. cbn [cs_binned].
  set (st := (ln (emax / emin) / (INR (S n) - 1))%R).
  assert (Est : st = (ln (emax / emin) / INR n)%R) by (unfold st; rewrite S_INR; f_equal; lra).
  assert (Hpos : (0 < INR n)%R) by (apply lt_0_INR; lia).
  assert (Hq : (0 < emax / emin)%R) by (apply Rdiv_lt_0_compat; assumption).
  assert (Hnth : forall k, k < S n -> nth k (map (fun k => (emin * exp (INR k * st))%R) (seq 0 n) ++ [emax]) 0%R = (emin * exp (INR k * st))%R).
  { intros k Hk. destruct (Nat.eq_dec k n) as [-> | Hkn].
    - rewrite app_nth2 by (rewrite map_length, seq_length; lia). rewrite map_length, seq_length, Nat.sub_diag. cbn [nth].
      rewrite Est. replace (INR n * (ln (emax / emin) / INR n))%R with (ln (emax / emin)) by (field; lra).
      rewrite exp_ln by exact Hq. field. lra.
    - rewrite app_nth1 by (rewrite map_length, seq_length; lia).
      rewrite nth_indep with (d' := (emin * exp (INR 0 * st))%R) by (rewrite map_length, seq_length; lia).
      rewrite (map_nth (fun k => (emin * exp (INR k * st))%R)), seq_nth by lia. reflexivity. }
  eexists. split; [reflexivity|]. cbn [Nat.sub]. rewrite Nat.sub_0_r. split.
  - split; [rewrite app_length, map_length, seq_length; cbn; lia|]. split; [|split].
    + rewrite Hnth by lia. cbn [INR]. rewrite Rmult_0_l, exp_0. ring.
    + cbn [Nat.sub]. rewrite Nat.sub_0_r. rewrite app_nth2 by (rewrite map_length, seq_length; lia). rewrite map_length, seq_length, Nat.sub_diag. reflexivity.
    + intros k Hk. rewrite !Hnth by lia. rewrite S_INR. unfold Rpower. cbn [Nat.sub]. rewrite Nat.sub_0_r, Rmult_assoc, <- exp_plus. do 2 f_equal. rewrite Est. field. lra.
  - intros k Hk. rewrite Hnth by exact Hk. now rewrite Est.
Qed.

Lemma bounds_any c emin emax n : cs_binned c = false -> setEbounds c emin emax n = setEbounds (mk_spectra false []) emin emax n.
Proof. intros H. unfold setEbounds. rewrite H. reflexivity. Qed.

Lemma log_increasing emin emax n eb : (0 < emin < emax)%R -> 2 <= n -> log_bounds emin emax n eb -> increasing eb.
Proof.
  intros H Hn (L & H0 & _ & Hs). set (q := Rpower (emax / emin) (1 / INR (n - 1))).
  assert (Hq : (1 < q)%R).
  { unfold q, Rpower. apply Rle_lt_trans with (exp 0); [rewrite exp_0; lra|]. apply exp_increasing. apply Rmult_lt_0_compat.
    - apply Rdiv_lt_0_compat; [lra|]. apply lt_0_INR. lia.
    - rewrite <- ln_1. apply ln_increasing; [lra|]. apply (Rmult_lt_reg_r emin); [lra|]. unfold Rdiv. rewrite Rmult_assoc, Rinv_l; lra. }
  assert (P : forall k, k < n -> (0 < nth k eb 0)%R).
  { induction k as [|k IH]; intros Hk; [rewrite H0; lra|]. rewrite Hs by lia. apply Rmult_lt_0_compat; [apply IH; lia|]. fold q. lra. }
  assert (S1 : forall k, S k < n -> (nth k eb 0 < nth (S k) eb 0)%R).
  { intros k Hk. rewrite Hs by lia. fold q. specialize (P k ltac:(lia)).
    rewrite <- (Rmult_1_r (nth k eb 0%R)) at 1. apply Rmult_lt_compat_l; assumption. }
  intros i j Hij Hj. rewrite L in Hj. induction j as [|j IH]; [lia|].
  destruct (Nat.eq_dec i j) as [-> | Hne]; [apply S1; lia|].
  apply Rlt_trans with (nth j eb 0%R); [apply IH; lia|apply S1; lia].
Qed.

Lemma additive_sum f eb l : additive f -> increasing eb -> binned_values eb f l -> 2 <= length eb ->
  total l = f (nth 0 eb 0%R) (nth (length eb - 1) eb 0%R).
Proof.
  intros A I (L & V) Hn.
  assert (K : forall m, m < length eb - 1 -> total (firstn (S m) l) = f (nth 0 eb 0%R) (nth (S m) eb 0%R)).
  { assert (D : forall m, m < length l -> firstn (S m) l = firstn m l ++ [nth m l 0%R]).
    { clear. induction l as [|x l IH]; intros m Hm; [cbn in Hm; lia|]. destruct m as [|m]; [reflexivity|]. cbn [length] in Hm.
      change (firstn (S (S m)) (x :: l)) with (x :: firstn (S m) l). rewrite IH by lia. reflexivity. }
    induction m as [|m IH]; intros Hm; rewrite D by lia; rewrite total_app.
    - cbn [firstn]. unfold total. cbn [fold_right]. rewrite V by lia. lra.
    - rewrite IH by lia. rewrite V by lia. unfold total. cbn [fold_right]. rewrite (A (nth 0 eb 0%R) (nth (S m) eb 0%R) (nth (S (S m)) eb 0%R)); [lra|].
      split; left; apply I; lia. }
  specialize (K (length eb - 2) ltac:(lia)). replace (S (length eb - 2)) with (length eb - 1) in K by lia.
  rewrite <- L in K at 1. now rewrite firstn_all in K.
Qed.

(** *** Spectra of the data *)
Definition run (data : list R) (st : R * nat) (_ : nat) : outcome (R * nat) := obind (vec_get data (snd st)) (fun x => Ok ((fst st + x)%R, snd st + 1)).
Definition part (data : list R) (i n : nat) : R := total (map (fun p => nth p data 0%R) (seq i n)).
Lemma part_app data i n m : part data i (n + m) = (part data i n + part data (i + n) m)%R.
Proof. unfold part. now rewrite seq_app, map_app, total_app. Qed.
Lemma run_ok data l : forall t i, i + length l <= length data -> mfold (run data) l (t, i) = Ok ((t + part data i (length l))%R, i + length l).
Proof.
  induction l as [|a l IH]; intros t i H; cbn [mfold length] in *.
  - unfold part, total. cbn. f_equal. f_equal; [lra|lia].
  - assert (E : run data (t, i) a = Ok ((t + nth i data 0)%R, i + 1)) by (unfold run; cbn [fst snd]; now rewrite (vec_get_ok data i 0%R) by lia). rewrite E. cbn [obind]. rewrite IH by lia. f_equal. f_equal; [|lia].
    change (S (length l)) with (1 + length l). rewrite part_app. unfold part at 2, total. cbn [seq map fold_right]. lra.
Qed.
Lemma rows_ok data nx l : forall t i, i + length l * nx <= length data ->
  mfold (fun st (_ : nat) => mfold (run data) (seq 0 nx) st) l (t, i) = Ok ((t + part data i (length l * nx))%R, i + length l * nx).
Proof.
  induction l as [|a l IH]; intros t i H; cbn [mfold length] in *.
  - unfold part, total. cbn. f_equal. f_equal; [lra|lia].
  - rewrite run_ok by (rewrite seq_length; lia). rewrite seq_length. cbn [obind]. rewrite IH by lia. f_equal. f_equal; [|lia].
    cbn [Nat.mul]. rewrite part_app. lra.
Qed.
Lemma planes_ok' data n (f : R * nat -> outcome (R * nat)) l : (forall t i, i + n <= length data -> f (t, i) = Ok ((t + part data i n)%R, i + n)) ->
  forall acc i, i + length l * n <= length data ->
  mfold (fun (st : list R * nat) (_ : nat) => obind (f (0%R, snd st)) (fun tn => Ok (fst st ++ [fst tn], snd tn))) l (acc, i)
  = Ok (acc ++ map (fun k => part data (i + k * n) n) (seq 0 (length l)), i + length l * n).
Proof.
  intros Hf. induction l as [|a l IH]; intros acc i H; cbn [mfold length] in *.
  - cbn. now rewrite app_nil_r, Nat.add_0_r.
  - cbn [snd]. rewrite Hf by lia. cbn [obind fst snd]. rewrite IH by lia. f_equal. f_equal; [|lia].
    rewrite <- app_assoc. cbn [app seq map]. rewrite Nat.mul_0_l, Nat.add_0_r. f_equal. f_equal; [lra|].
    rewrite <- seq_shift, map_map. apply map_ext. intros k. f_equal. lia.
Qed.
Lemma spectrum_wcs nx ny nz data : length data = nz * (ny * nx) ->
  computeCountsSpectrum_wcs nx ny nz data = Ok (map (fun k => part data (k * (ny * nx)) (ny * nx)) (seq 0 nz)).
Proof.
  intros L. unfold computeCountsSpectrum_wcs. change (fun st (_ : nat) => obind (vec_get data (snd st)) (fun x => Ok ((fst st + x)%R, snd st + 1))) with (run data).
  rewrite (planes_ok' data (ny * nx) (fun s => mfold (fun st (_ : nat) => mfold (run data) (seq 0 nx) st) (seq 0 ny) s)).
  - cbn [obind fst app]. now rewrite seq_length.
  - intros t i H. rewrite rows_ok by (rewrite seq_length; exact H). now rewrite seq_length.
  - rewrite seq_length. lia.
Qed.
Lemma spectrum_healpix nx ny data : length data = ny * nx ->
  computeCountsSpectrum_healpix nx ny data = Ok (map (fun k => part data (k * nx) nx) (seq 0 ny)).
Proof.
  intros L. unfold computeCountsSpectrum_healpix. change (fun st (_ : nat) => obind (vec_get data (snd st)) (fun x => Ok ((fst st + x)%R, snd st + 1))) with (run data).
  rewrite (planes_ok' data nx (fun s => mfold (run data) (seq 0 nx) s)).
  - cbn [obind fst app]. now rewrite seq_length.
  - intros t i H. rewrite run_ok by (rewrite seq_length; exact H). now rewrite seq_length.
  - rewrite seq_length. lia.
Qed.
Lemma parts_total data n m : total (map (fun k => part data (k * n) n) (seq 0 m)) = part data 0 (m * n).
Proof.
  induction m as [|m IH]; [reflexivity|]. rewrite seq_S', map_app, total_app, IH. cbn [map]. unfold total at 1. cbn [fold_right].
  replace (S m * n) with (m * n + n) by lia. rewrite part_app. cbn [Nat.add]. lra.
Qed.
Lemma part_all data : part data 0 (length data) = total data.
Proof.
  unfold part. f_equal. apply (list_ext_nth _ _ 0%R); [now rewrite map_length, seq_length|]. intros i Hi. rewrite map_length, seq_length in Hi.
  rewrite nth_indep with (d' := nth 0 data 0%R) by (rewrite map_length, seq_length; lia).
  rewrite (map_nth (fun p => nth p data 0%R)), seq_nth by lia. reflexivity.
Qed.

(** *** Counts of a source in the data *)
Lemma accumulate (f : list R -> nat -> outcome (list R)) (g : nat -> R) q js : forall out, q < length out ->
  (forall out' j, In j js -> length out' = length out -> f out' j = vec_set out' q (nth q out' 0 + g j)%R) ->
  mfold f js out = Ok (upd out q (nth q out 0 + total (map g js))%R).
Proof.
  induction js as [|j js IH]; intros out Hq H; cbn [mfold map].
  - unfold total. cbn [fold_right]. rewrite Rplus_0_r. f_equal. apply (list_ext_nth _ _ 0%R); [now rewrite upd_length|]. intros i Hi.
    destruct (Nat.eq_dec i q) as [-> | Hn]; [now rewrite nth_upd_eq|]. rewrite nth_upd_neq by auto. reflexivity.
  - rewrite H by (auto; now left). rewrite vec_set_ok by exact Hq. cbn [obind]. rewrite IH.
    + rewrite nth_upd_eq by exact Hq. f_equal. apply (list_ext_nth _ _ 0%R); [now rewrite !upd_length|]. intros i Hi. rewrite !upd_length in Hi.
      destruct (Nat.eq_dec i q) as [-> | Hn].
      * rewrite !nth_upd_eq by (rewrite ?upd_length; exact Hq). unfold total. cbn [fold_right]. lra.
      * now rewrite !nth_upd_neq by auto.
    + now rewrite upd_length.
    + intros out' x Hx L. apply H; [now right|]. now rewrite upd_length in L.
Qed.

Section Good.
Variable d : cache.
Hypothesis Hd : good d.
Notation first k := (nth k (c_first d) 0).
Lemma first_mono i j : i <= j -> j <= c_nebins d -> first i <= first j.
Proof. intros Hij Hj. induction Hij as [|j Hij IH]; [lia|]. specialize (IH ltac:(lia)). pose proof (gd_mono d Hd j ltac:(lia)). lia. Qed.
Lemma first_end k : k <= c_nebins d -> first k <= length (c_filled d).
Proof. intros H. rewrite <- (gd_end d Hd). apply first_mono; lia. Qed.

Definition share_of (model counts : list R) (k : nat) : R :=
  total (map (fun j => (nth j counts 0 / nth j model 0 * nth (k * c_npix d + nth j (c_filled d) 0%nat) (c_data d) 0)%R) (seq (first k) (first (S k) - first k))).

Lemma counts_ok kmin kmax use lmin lmax model counts :
  kmin = (if use : bool then lmin else 0) -> kmax = (if use then lmax else c_nebins d) ->
  kmin <= kmax -> kmax <= c_nebins d -> length model = length (c_filled d) -> length counts = length (c_filled d) ->
  (forall k j, kmin <= k < kmax -> in_energy d k j -> nth j model 0%R <> 0%R) ->
  countsSpectrum d lmin lmax use model counts = Ok (map (share_of model counts) (seq kmin (kmax - kmin))).
Proof.
  intros E1 E2 H1 H2 Lm Lc Hz. unfold countsSpectrum. rewrite <- E1, <- E2.
  assert (T : (kmax <? kmin) = false) by (apply Nat.ltb_ge; exact H1). rewrite T.
  match goal with |- mfold ?f _ _ = _ => set (step := f) end.
  assert (K : forall m, m <= kmax - kmin -> exists out, mfold step (seq kmin m) (repeat 0%R (kmax - kmin)) = Ok out /\ length out = kmax - kmin /\
     forall i, nth i out 0%R = if i <? m then share_of model counts (kmin + i) else 0%R).
  { induction m as [|m IH]; intros Hm.
    - exists (repeat 0%R (kmax - kmin)). split; [reflexivity|]. split; [apply repeat_length|]. intros i. cbn.
      destruct (Nat.lt_ge_cases i (kmax - kmin)); [now rewrite nth_repeat|now rewrite nth_overflow by (rewrite repeat_length; lia)].
    - destruct IH as (out & E & L & Hout); [lia|]. rewrite seq_S, mfold_snoc', E. cbn [obind]. unfold step.
      pose proof (gd_first d Hd) as Lf. rewrite (vec_get_ok (c_first d) (kmin + m) 0) by lia. cbn [obind].
      rewrite (vec_get_ok (c_first d) (kmin + m + 1) 0) by lia. cbn [obind]. rewrite Nat.add_1_r.
      rewrite (accumulate _ (fun j => (nth j counts 0 / nth j model 0 * nth ((kmin + m) * c_npix d + nth j (c_filled d) 0%nat) (c_data d) 0)%R) m).
      + eexists. split; [reflexivity|]. rewrite upd_length. split; [exact L|]. intros i.
        destruct (Nat.eq_dec i m) as [-> | Hi].
        * rewrite nth_upd_eq by lia. rewrite Hout, Nat.ltb_irrefl. assert (T2 : (m <? S m) = true) by (apply Nat.ltb_lt; lia). rewrite T2.
          unfold share_of. lra.
        * rewrite nth_upd_neq by lia. rewrite Hout. destruct (Nat.ltb_spec i m), (Nat.ltb_spec i (S m)); try reflexivity; lia.
      + lia.
      + intros out' j Hj L'. apply in_seq in Hj. pose proof (gd_mono d Hd (kmin + m) ltac:(lia)). pose proof (first_end (S (kmin + m)) ltac:(lia)).
        rewrite (vec_get_ok counts j 0%R) by lia. cbn [obind]. rewrite (vec_get_ok model j 0%R) by lia. cbn [obind].
        destruct (Reqb_spec (nth j model 0%R) 0) as [Z|_]; [exfalso; apply (Hz (kmin + m) j); [lia|unfold in_energy; lia|exact Z]|].
        rewrite (vec_get_ok (c_filled d) j 0) by lia. cbn [obind].
        assert (B : (kmin + m) * c_npix d + nth j (c_filled d) 0 < length (c_data d)).
        { rewrite (gd_data d Hd). pose proof (gd_pix d Hd j ltac:(lia)). nia. }
        rewrite (vec_get_ok (c_data d) _ 0%R B). cbn [obind]. replace (kmin + m - kmin) with m by lia.
        rewrite (vec_get_ok out' m 0%R) by lia. cbn [obind]. reflexivity. }
  destruct (K (kmax - kmin) (le_n _)) as (out & E & L & Hout). rewrite E. f_equal.
  apply (list_ext_nth _ _ 0%R); [rewrite map_length, seq_length; exact L|]. intros i Hi. rewrite L in Hi. rewrite Hout.
  assert (T2 : (i <? kmax - kmin) = true) by (apply Nat.ltb_lt; lia). rewrite T2.
  rewrite nth_indep with (d' := share_of model counts 0) by (rewrite map_length, seq_length; lia).
  rewrite (map_nth (share_of model counts)), seq_nth by lia. reflexivity.
Qed.

Lemma write_range (counts : list R) n : forall j0 m, j0 + n <= length counts -> length m = length counts ->
  exists m', mfold (fun m j => obind (vec_get counts j) (fun x => vec_set m j x)) (seq j0 n) m = Ok m' /\ length m' = length m /\
    forall j, nth j m' 0%R = if (j0 <=? j) && (j <? j0 + n) then nth j counts 0%R else nth j m 0%R.
Proof.
  induction n as [|n IH]; intros j0 m H L; cbn [seq mfold].
  - exists m. split; [reflexivity|]. split; [reflexivity|]. intros j.
    destruct (Nat.leb_spec j0 j), (Nat.ltb_spec j (j0 + 0)); cbn; try reflexivity; lia.
  - rewrite (vec_get_ok counts j0 0%R) by lia. cbn [obind]. rewrite vec_set_ok by lia. cbn [obind].
    destruct (IH (S j0) (upd m j0 (nth j0 counts 0%R))) as (m' & E & L' & H'); [lia|now rewrite upd_length|].
    exists m'. split; [exact E|]. rewrite upd_length in L'. split; [exact L'|]. intros j. rewrite H'.
    destruct (Nat.eq_dec j j0) as [-> | Hj].
    + rewrite nth_upd_eq by lia. destruct (Nat.leb_spec (S j0) j0); [lia|]. destruct (Nat.leb_spec j0 j0); [|lia]. destruct (Nat.ltb_spec j0 (j0 + S n)); [reflexivity|lia].
    + rewrite nth_upd_neq by auto.
      destruct (Nat.leb_spec (S j0) j), (Nat.leb_spec j0 j), (Nat.ltb_spec j (S j0 + n)), (Nat.ltb_spec j (j0 + S n)); cbn; try reflexivity; lia.
Qed.

Lemma model_ok kmin kmax counts : kmin <= kmax -> kmax <= c_nebins d -> length counts = length (c_filled d) ->
  exists model, current_model d kmin kmax counts = Ok model /\ length model = length (c_filled d) /\
    forall j, nth j model 0%R = if (first kmin <=? j) && (j <? first kmax) then nth j counts 0%R else 0%R.
Proof.
  intros H1 H2 L. unfold current_model. match goal with |- context [mfold ?f (seq kmin _) _] => set (step := f) end.
  assert (K : forall m, m <= kmax - kmin -> exists out, mfold step (seq kmin m) (repeat 0%R (length (c_filled d))) = Ok out /\ length out = length (c_filled d) /\
     forall j, nth j out 0%R = if (first kmin <=? j) && (j <? first (kmin + m)) then nth j counts 0%R else 0%R).
  { induction m as [|m IH]; intros Hm.
    - eexists. split; [reflexivity|]. rewrite repeat_length. split; [reflexivity|]. intros j. rewrite Nat.add_0_r.
      assert (Z : nth j (repeat 0%R (length (c_filled d))) 0%R = 0%R).
      { destruct (Nat.lt_ge_cases j (length (c_filled d))); [now rewrite nth_repeat|now rewrite nth_overflow by (rewrite repeat_length; lia)]. }
      rewrite Z. destruct (Nat.leb_spec (first kmin) j), (Nat.ltb_spec j (first kmin)); cbn; try reflexivity; lia.
    - destruct IH as (out & E & Lo & Ho); [lia|]. rewrite seq_S, mfold_snoc', E. cbn [obind]. unfold step.
      pose proof (gd_first d Hd) as Lf. rewrite (vec_get_ok (c_first d) (kmin + m) 0) by lia. cbn [obind].
      rewrite (vec_get_ok (c_first d) (kmin + m + 1) 0) by lia. cbn [obind]. rewrite Nat.add_1_r, Nat.add_succ_r.
      pose proof (gd_mono d Hd (kmin + m) ltac:(lia)) as M. pose proof (first_end (S (kmin + m)) ltac:(lia)). pose proof (first_mono kmin (kmin + m) ltac:(lia) ltac:(lia)).
      destruct (write_range counts (first (S (kmin + m)) - first (kmin + m)) (first (kmin + m)) out) as (m' & E' & L' & H'); [lia|congruence|].
      exists m'. split; [exact E'|]. split; [congruence|]. intros j. rewrite H', Ho.
      destruct (Nat.leb_spec (first (kmin + m)) j), (Nat.ltb_spec j (first (kmin + m) + (first (S (kmin + m)) - first (kmin + m)))), (Nat.leb_spec (first kmin) j), (Nat.ltb_spec j (first (kmin + m))), (Nat.ltb_spec j (first (S (kmin + m)))); cbn; try reflexivity; lia. }
  destruct (K (kmax - kmin) (le_n _)) as (out & E & Lo & Ho). replace (kmin + (kmax - kmin)) with kmax in Ho by lia. exists out. auto.
Qed.

Lemma shares_total model (css : list (list R)) k : (forall j, in_energy d k j -> nth j model 0%R <> 0%R /\ nth j model 0%R = total (map (fun cs => nth j cs 0%R) css)) ->
  total (map (fun cs => share_of model cs k) css) = filled_counts d k.
Proof.
  intros H. unfold share_of, filled_counts.
  assert (K : forall js, (forall j, In j js -> nth j model 0%R <> 0%R /\ nth j model 0%R = total (map (fun cs => nth j cs 0%R) css)) ->
    total (map (fun cs => total (map (fun j => (nth j cs 0 / nth j model 0 * nth (k * c_npix d + nth j (c_filled d) 0%nat) (c_data d) 0)%R) js)) css)
    = total (map (fun j => nth (k * c_npix d + nth j (c_filled d) 0) (c_data d) 0%R) js)).
  { induction js as [|j js IH]; intros Hj.
    - cbn [map]. clear. unfold total at 1. induction css as [|c l IH]; [reflexivity|]. cbn [map fold_right]. rewrite IH. unfold total. cbn. lra.
    - destruct (Hj j (or_introl eq_refl)) as (Z & E). cbn [map]. unfold total at 3. cbn [fold_right].
      fold (total (map (fun j => nth (k * c_npix d + nth j (c_filled d) 0) (c_data d) 0%R) js)). rewrite <- IH by (intros; apply Hj; now right).
      set (n := nth (k * c_npix d + nth j (c_filled d) 0) (c_data d) 0%R).
      set (rest := fun cs => total (map (fun j0 => (nth j0 cs 0 / nth j0 model 0 * nth (k * c_npix d + nth j0 (c_filled d) 0%nat) (c_data d) 0)%R) js)).
      assert (Q : forall l, total (map (fun cs => total ((nth j cs 0 / nth j model 0 * n)%R :: map (fun j0 => (nth j0 cs 0 / nth j0 model 0 * nth (k * c_npix d + nth j0 (c_filled d) 0%nat) (c_data d) 0)%R) js)) l)
              = (total (map (fun cs => nth j cs 0%R) l) / nth j model 0 * n + total (map rest l))%R).
      { induction l as [|c l IHl]; [unfold total; cbn; field; exact Z|]. cbn [map]. rewrite !total_cons, IHl. unfold rest at 2. field. exact Z. }
      rewrite Q, <- E. fold rest. field. exact Z. }
  apply K. intros j Hj. apply in_seq in Hj. apply H. unfold in_energy. lia.
Qed.
End Good.

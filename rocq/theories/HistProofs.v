From Coq Require Import ZifyBool.
From Verif Require Import Base HistModel HistSpec.

Section Layout.
Context {X : Type}.
Implicit Types (bs : list (binner X)) (iv : list nat).

Fixpoint prod bs : nat := match bs with [] => 1 | b :: bs' => nbins b * prod bs' end.
Fixpoint flat bs iv : nat :=
  match bs, iv with
  | b :: bs', i :: iv' => i + nbins b * flat bs' iv'
  | _, _ => 0
  end.

Lemma prod_fold bs a : fold_left (fun n b => n * nbins b) bs a = a * prod bs.
Proof. revert a; induction bs as [|b bs IH]; intros a; simpl; [lia|]. rewrite IH. lia. Qed.

Lemma in_range_length bs iv : in_range bs iv -> length iv = length bs.
Proof. induction 1; simpl; auto. Qed.

Lemma flat_lt bs iv : in_range bs iv -> flat bs iv < prod bs.
Proof. induction 1 as [|b i bs iv Hi _ IH]; simpl; [lia|]. nia. Qed.

Lemma flat_inj bs iv iv' : in_range bs iv -> in_range bs iv' -> flat bs iv = flat bs iv' -> iv = iv'.
Proof.
  intros H; revert iv'; induction H as [|b i bs iv Hi _ IH]; intros iv' H' E; inversion H'; subst; auto.
  simpl in E.
  assert (Ef : flat bs iv = flat bs l').
  { destruct (Nat.lt_trichotomy (flat bs iv) (flat bs l')) as [L|[L|L]]; auto; exfalso; nia. }
  rewrite Ef in E. f_equal; [lia|]. apply IH; auto.
Qed.

Lemma flat_surj bs k : k < prod bs -> exists iv, in_range bs iv /\ flat bs iv = k.
Proof.
  revert k; induction bs as [|b bs IH]; intros k H; simpl in *.
  - exists []. split; [constructor|lia].
  - assert (Hn : nbins b <> 0) by nia.
    destruct (IH (k / nbins b)) as (iv & Hr & Hf).
    { apply Nat.div_lt_upper_bound; auto. }
    exists (k mod nbins b :: iv). split.
    + constructor; auto. now apply Nat.mod_upper_bound.
    + simpl. rewrite Hf. pose proof (Nat.div_mod k _ Hn). lia.
Qed.

Lemma strides_length s bs : length (strides_from s bs) = length bs.
Proof. revert s; induction bs as [|b bs IH]; intros s; simpl; auto. Qed.

Lemma index_fold bs : forall iv s a, length iv = length bs ->
  fold_left (fun s p => s + Z.of_nat (fst p) * snd p)%Z
            (combine (strides_from s bs) (map Z.of_nat iv)) a
  = (a + Z.of_nat (s * flat bs iv))%Z.
Proof.
  induction bs as [|b bs IH]; intros [|i iv] s a H; simpl in *; try discriminate.
  - rewrite Nat.mul_0_r. lia.
  - rewrite IH by lia. lia.
Qed.

Lemma flat_upd bs : forall iv s k j b, nth_error bs k = Some b -> length iv = length bs ->
  s * flat bs (upd iv k j) = s * flat bs (upd iv k 0) + nth k (strides_from s bs) 0 * j.
Proof.
  induction bs as [|c bs IH]; intros [|i iv] s [|k] j b Hb Hl; simpl in *; try discriminate; try lia.
  assert (E := IH iv (s * nbins c) k j b Hb ltac:(lia)). nia.
Qed.

Lemma stride_next bs : forall s k b, nth_error bs k = Some b -> S k < length bs ->
  nth (S k) (strides_from s bs) 0 = nth k (strides_from s bs) 0 * nbins b.
Proof.
  induction bs as [|c bs IH]; intros s k b Hk Hl; [simpl in Hl; lia|].
  destruct k as [|k].
  - simpl in Hk. injection Hk as ->. destruct bs; simpl in *; [lia|reflexivity].
  - simpl in Hk. simpl in Hl.
    specialize (IH (s * nbins c) k b Hk ltac:(lia)). simpl strides_from. exact IH.
Qed.

Lemma stride_last bs : forall s k b, nth_error bs k = Some b -> S k = length bs ->
  s * prod bs = nth k (strides_from s bs) 0 * nbins b.
Proof.
  induction bs as [|c bs IH]; intros s k b Hk Hl; [simpl in Hl; lia|].
  destruct k as [|k].
  - simpl in Hk. injection Hk as ->. destruct bs; simpl in *; lia.
  - simpl in Hk, Hl. simpl. rewrite <- (IH (s * nbins c) k b Hk) by lia. lia.
Qed.

Lemma strides_pos bs iv : in_range bs iv -> forall s k, 0 < s -> k < length bs ->
  0 < nth k (strides_from s bs) 0.
Proof.
  induction 1 as [|b i bs iv Hi _ IH]; intros s k Hs Hk; simpl in *; [lia|].
  destruct k; auto. apply IH; nia.
Qed.

Lemma in_range_upd bs iv k j : in_range bs iv ->
  (forall b, nth_error bs k = Some b -> j < nbins b) -> in_range bs (upd iv k j).
Proof.
  intros H; revert k; induction H as [|b i bs iv Hi Hr IH]; intros [|k] Hj; simpl; try constructor; auto.
  apply IH. exact Hj.
Qed.

Lemma in_range_nth bs iv k b i : in_range bs iv -> nth_error bs k = Some b ->
  nth_error iv k = Some i -> i < nbins b.
Proof.
  intros H; revert k; induction H as [|c j bs iv Hi Hr IH]; intros [|k] Hb Hv; simpl in *; try discriminate.
  - congruence.
  - eauto.
Qed.

End Layout.

Section Proofs.
Context {X T W : Type} (zero : T) (acc : T -> W -> T).
Implicit Types (bs : list (binner X)) (h : hist X T).

Record wf h : Prop := {
  wf_strides : h_strides h = strides_from 1 (h_binners h);
  wf_data : length (h_data h) = prod (h_binners h) }.

Lemma new_wf bs h : hist_new zero bs = Ok h ->
  wf h /\ h_binners h = bs /\ h_data h = repeat zero (prod bs).
Proof.
  intros H.
  assert (E : h = mk_hist bs (repeat zero (prod bs)) (strides_from 1 bs)).
  { destruct bs as [|b bs0]; [discriminate|]. injection H as <-. f_equal. f_equal.
    change (fold_left (fun n b => n * nbins b) (b :: bs0) 1 = prod (b :: bs0)).
    rewrite prod_fold. lia. }
  subst h. repeat split; simpl; auto. apply repeat_length.
Qed.

Lemma new_ok bs : bs <> [] -> exists h, hist_new zero bs = Ok h.
Proof. destruct bs; [congruence|]. intros _. eexists. reflexivity. Qed.

Lemma binIndexL_flat h iv : wf h -> length iv = length (h_binners h) ->
  binIndexL h (map Z.of_nat iv) = Ok (Z.of_nat (flat (h_binners h) iv)).
Proof.
  intros [Hs Hd] Hl. unfold binIndexL, ndims. rewrite map_length, Hl, Nat.eqb_refl. simpl.
  rewrite Hs, index_fold by auto. f_equal. lia.
Qed.

Lemma cell_nth h iv d : wf h -> in_range (h_binners h) iv ->
  cell h iv = Ok (nth (flat (h_binners h) iv) (h_data h) d).
Proof.
  intros Hw Hr. unfold cell. rewrite binIndexL_flat; auto using in_range_length. simpl.
  unfold hist_read. replace (Z.of_nat _ <? 0)%Z with false by lia.
  rewrite Nat2Z.id. apply vec_get_ok. rewrite (wf_data h Hw). now apply flat_lt.
Qed.

(** collect *)
Lemma collect_some border bs : forall vs iv, collect border bs vs = Some iv -> length vs = length bs ->
  exists niv, iv = map Z.of_nat niv \/ (border < 0)%Z.
Proof.
  intros vs iv H _. destruct (Z_lt_le_dec border 0) as [Hb|Hb]; [exists []; auto|].
  revert vs iv H; induction bs as [|b bs IH]; intros [|v vs] iv H; simpl in *;
    try (injection H as <-; exists []; auto; fail).
  destruct (_ || _) eqn:E; [discriminate|].
  destruct (collect border bs vs) as [iv0|] eqn:E0; [|discriminate]. simpl in H. injection H as <-.
  destruct (IH vs iv0 E0) as (niv & [->|]); [|exists []; auto].
  exists (Z.to_nat (cindex b v) :: niv). left. simpl. f_equal. lia.
Qed.

Lemma falls_inb_cons (b : binner X) bs v vs i iv :
  falls_inb (b :: bs) (v :: vs) (i :: iv) =
  (Z.eqb (cindex b v) (Z.of_nat i) && (i <? nbins b)) && falls_inb bs vs iv.
Proof.
  unfold falls_inb. simpl. destruct (_ =? _)%Z, (i <? nbins b), (length vs =? length bs), (length iv =? length bs);
    simpl; auto.
Qed.

Lemma collect_spec border bs : (0 <= border)%Z -> forall vs, length vs = length bs ->
  match collect border bs vs with
  | Some zs => exists iv, zs = map Z.of_nat iv /\ falls_inb bs vs iv = true /\
       Forall2 (fun b i => (border <= Z.of_nat i < Z.of_nat (nbins b) - border)%Z) bs iv
  | None => forall iv, falls_inb bs vs iv = true ->
       ~ Forall2 (fun b i => (border <= Z.of_nat i < Z.of_nat (nbins b) - border)%Z) bs iv
  end.
Proof.
  intros Hb. induction bs as [|b bs IH]; intros [|v vs] Hl; simpl in Hl; try discriminate.
  - simpl. exists []. repeat split; auto.
  - simpl. destruct ((cindex b v <? border)%Z || _) eqn:E.
    + intros [|i iv] F H; inversion H; subst.
      rewrite falls_inb_cons in F. apply andb_prop in F as [F _]. lia.
    + specialize (IH vs ltac:(lia)). destruct (collect border bs vs) as [zs|]; simpl.
      * destruct IH as (iv & -> & F & G). exists (Z.to_nat (cindex b v) :: iv).
        split; [simpl; f_equal; lia|]. split.
        -- rewrite falls_inb_cons, F. lia.
        -- constructor; auto. lia.
      * intros [|i iv] F H; inversion H; subst.
        rewrite falls_inb_cons in F. apply andb_prop in F as [_ F]. exact (IH iv F H5).
Qed.

Lemma falls_inb_len bs vs iv : falls_inb bs vs iv = true -> length vs = length bs /\ length iv = length bs.
Proof. unfold falls_inb. intros F. apply andb_prop in F as [F _]. lia. Qed.

Lemma falls_inb_range bs : forall vs iv, falls_inb bs vs iv = true -> in_range bs iv.
Proof.
  induction bs as [|b bs IH]; intros vs iv F; destruct (falls_inb_len _ _ _ F) as [L1 L2];
    destruct vs as [|v vs], iv as [|i iv]; simpl in L1, L2; try discriminate; [constructor|].
  rewrite falls_inb_cons in F. apply andb_prop in F as [F G]. constructor; [lia|]. exact (IH _ _ G).
Qed.

Lemma falls_inb_spec bs : forall vs iv, falls_inb bs vs iv = true <-> falls_in bs vs iv.
Proof.
  intros vs iv. split.
  - intros F. split; [exact (falls_inb_range _ _ _ F)|]. revert vs iv F.
    induction bs as [|b bs IH]; intros vs iv F; destruct (falls_inb_len _ _ _ F) as [L1 L2];
      destruct vs as [|v vs], iv as [|i iv]; simpl in L1, L2; try discriminate.
    + split; auto. intros [|k]; discriminate.
    + rewrite falls_inb_cons in F. apply andb_prop in F as [F G]. apply IH in G as [Hl G].
      split; [simpl; lia|]. intros [|k] b' v' Hb Hv; simpl in *.
      * injection Hb as ->. injection Hv as ->. exists i. split; auto. lia.
      * eauto.
  - intros (Hr & Hl & H). revert vs Hl H. induction Hr as [|b i bs iv Hi Hr IH]; intros [|v vs] Hl H;
      simpl in Hl; try discriminate; auto.
    rewrite falls_inb_cons, IH; auto.
    + destruct (H 0 b v eq_refl eq_refl) as (i' & E & E'). simpl in E. injection E as <-.
      rewrite E'. lia.
    + intros k b' v' Hb Hv. exact (H (S k) b' v' Hb Hv).
Qed.

Lemma falls_inb_fun bs vs : forall iv iv', falls_inb bs vs iv = true -> falls_inb bs vs iv' = true -> iv = iv'.
Proof.
  revert vs; induction bs as [|b bs IH]; intros vs iv iv' F F';
    destruct (falls_inb_len _ _ _ F) as [L1 L2], (falls_inb_len _ _ _ F') as [L3 L4];
    destruct vs as [|v vs], iv as [|i iv], iv' as [|i' iv']; simpl in L1, L2, L3, L4; try discriminate; auto.
  rewrite falls_inb_cons in *. apply andb_prop in F as [F G]. apply andb_prop in F' as [F' G'].
  f_equal; [lia|eauto].
Qed.

Lemma Forall2_in_range bs iv : in_range bs iv ->
  Forall2 (fun b i => (0 <= Z.of_nat i < Z.of_nat (nbins b) - 0)%Z) bs iv.
Proof. induction 1; constructor; auto. lia. Qed.

(** binIndex on coordinates *)
Lemma binIndexD_in h vs iv border : wf h -> (0 <= border)%Z -> falls_inb (h_binners h) vs iv = true ->
  Forall2 (fun b i => (border <= Z.of_nat i < Z.of_nat (nbins b) - border)%Z) (h_binners h) iv ->
  binIndexD h vs border = binIndexL h (map Z.of_nat iv).
Proof.
  intros Hw Hb F G. unfold binIndexD.
  assert (Hl : length vs = length (h_binners h)) by (apply falls_inb_spec in F; apply F).
  unfold ndims. rewrite Hl, Nat.eqb_refl. simpl.
  pose proof (collect_spec border (h_binners h) Hb vs Hl) as C.
  destruct (collect border (h_binners h) vs) as [zs|].
  - destruct C as (iv' & -> & F' & _). now rewrite (falls_inb_fun _ _ _ _ F F').
  - exfalso. exact (C iv F G).
Qed.

Lemma binIndexD_out h vs border : (0 <= border)%Z -> length vs = length (h_binners h) ->
  (forall iv, falls_inb (h_binners h) vs iv = true ->
     ~ Forall2 (fun b i => (border <= Z.of_nat i < Z.of_nat (nbins b) - border)%Z) (h_binners h) iv) ->
  binIndexD h vs border = Ok (-1)%Z.
Proof.
  intros Hb Hl N. unfold binIndexD, ndims. rewrite Hl, Nat.eqb_refl. simpl.
  pose proof (collect_spec border (h_binners h) Hb vs Hl) as C.
  destruct (collect border (h_binners h) vs) as [zs|]; auto.
  destruct C as (iv' & _ & F' & G'). exfalso. exact (N iv' F' G').
Qed.

(** fill *)
Lemma fill_spec h vs w d : wf h -> length vs = length (h_binners h) ->
  exists h', fillBin acc h vs w = Ok h' /\ wf h' /\ h_binners h' = h_binners h /\
    forall iv, in_range (h_binners h) iv ->
      nth (flat (h_binners h) iv) (h_data h') d =
      if falls_inb (h_binners h) vs iv then acc (nth (flat (h_binners h) iv) (h_data h) d) w
      else nth (flat (h_binners h) iv) (h_data h) d.
Proof.
  intros Hw Hl.
  pose proof (collect_spec 0 (h_binners h) ltac:(lia) vs Hl) as C.
  unfold fillBin, binIndexD, ndims. rewrite Hl, Nat.eqb_refl. simpl.
  destruct (collect 0 (h_binners h) vs) as [zs|].
  - destruct C as (iv & -> & F & G). pose proof (falls_inb_range _ _ _ F) as Hr.
    rewrite binIndexL_flat; auto using in_range_length. simpl.
    replace (0 <=? Z.of_nat _)%Z with true by lia. rewrite Nat2Z.id.
    assert (Hlt : flat (h_binners h) iv < length (h_data h)).
    { rewrite (wf_data h Hw). now apply flat_lt. }
    rewrite (vec_get_ok _ _ d) by auto. simpl. rewrite vec_set_ok by auto. simpl.
    eexists; split; [reflexivity|]. split; [|split; [reflexivity|]].
    + destruct Hw. split; simpl; auto. now rewrite upd_length.
    + simpl. intros iv' Hr'. destruct (falls_inb (h_binners h) vs iv') eqn:F'.
      * rewrite (falls_inb_fun _ _ _ _ F' F). now apply nth_upd_eq.
      * apply nth_upd_neq. intros E. apply flat_inj in E; auto. congruence.
  - simpl. eexists; split; [reflexivity|]. split; auto. split; auto.
    intros iv Hr. destruct (falls_inb (h_binners h) vs iv) eqn:F; auto.
    exfalso. apply (C iv F). now apply Forall2_in_range.
Qed.

Lemma fills_spec evs : forall h, wf h ->
  Forall (fun e => length (fst e) = length (h_binners h)) evs ->
  exists h', fills acc h evs = Ok h' /\ wf h' /\ h_binners h' = h_binners h /\
    forall iv, in_range (h_binners h) iv ->
      nth (flat (h_binners h) iv) (h_data h') zero =
      fold_left acc (weights_in (h_binners h) evs iv) (nth (flat (h_binners h) iv) (h_data h) zero).
Proof.
  induction evs as [|[vs w] evs IH]; intros h Hw Hf.
  - exists h. repeat split; auto; apply Hw.
  - inversion Hf as [|? ? Hl Hf']; subst. simpl in Hl.
    destruct (fill_spec h vs w zero Hw Hl) as (h1 & E1 & Hw1 & Eb & Hc).
    unfold fills. simpl. rewrite E1. simpl.
    destruct (IH h1 Hw1) as (h2 & E2 & Hw2 & Eb2 & Hc2). { now rewrite Eb. }
    exists h2. split; [exact E2|]. split; auto. split; [congruence|].
    intros iv Hr. rewrite Eb in Hc2. rewrite Hc2, Hc by auto. unfold weights_in. simpl.
    destruct (falls_inb (h_binners h) vs iv); reflexivity.
Qed.

Lemma fills_cells bs h evs : hist_new zero bs = Ok h ->
  Forall (fun e => length (fst e) = length bs) evs ->
  exists h', fills acc h evs = Ok h' /\
    forall iv, in_range bs iv -> cell h' iv = Ok (fold_left acc (weights_in bs evs iv) zero).
Proof.
  intros Hn Hf. destruct (new_wf _ _ Hn) as (Hw & Hb & Hd). subst bs.
  destruct (fills_spec evs h Hw Hf) as (h' & E & Hw' & Eb & Hc).
  exists h'. split; auto. intros iv Hr. rewrite (cell_nth _ _ zero) by (auto; congruence).
  rewrite Eb, Hc by auto. f_equal. f_equal. rewrite Hd. apply nth_repeat.
Qed.

(** index facts, for the histogram just built *)
Lemma index_range bs h iv : hist_new zero bs = Ok h -> in_range bs iv ->
  exists z, binIndexL h (map Z.of_nat iv) = Ok z /\ (0 <= z < Z.of_nat (length (h_data h)))%Z.
Proof.
  intros Hn Hr. destruct (new_wf _ _ Hn) as (Hw & Hb & Hd). subst bs.
  eexists; split; [apply binIndexL_flat; auto using in_range_length|].
  rewrite (wf_data h Hw). pose proof (flat_lt _ _ Hr). lia.
Qed.

Lemma index_inj bs h iv iv' : hist_new zero bs = Ok h -> in_range bs iv -> in_range bs iv' ->
  binIndexL h (map Z.of_nat iv) = binIndexL h (map Z.of_nat iv') -> iv = iv'.
Proof.
  intros Hn Hr Hr'. destruct (new_wf _ _ Hn) as (Hw & Hb & Hd). subst bs.
  rewrite !binIndexL_flat; auto using in_range_length. intros E. injection E as E.
  apply (flat_inj _ _ _ Hr Hr'). lia.
Qed.

Lemma index_surj bs h k : hist_new zero bs = Ok h -> k < length (h_data h) ->
  exists iv, in_range bs iv /\ binIndexL h (map Z.of_nat iv) = Ok (Z.of_nat k).
Proof.
  intros Hn Hk. destruct (new_wf _ _ Hn) as (Hw & Hb & Hd). subst bs.
  rewrite (wf_data h Hw) in Hk. destruct (flat_surj _ _ Hk) as (iv & Hr & <-).
  exists iv. split; auto. apply binIndexL_flat; auto using in_range_length.
Qed.

Lemma coord_index bs h vs iv border : hist_new zero bs = Ok h -> (0 <= border)%Z ->
  falls_in bs vs iv ->
  Forall2 (fun b i => (border <= Z.of_nat i < Z.of_nat (nbins b) - border)%Z) bs iv ->
  binIndexD h vs border = binIndexL h (map Z.of_nat iv).
Proof.
  intros Hn Hb F G. destruct (new_wf _ _ Hn) as (Hw & Eb & Hd). subst bs.
  apply binIndexD_in; auto. now apply falls_inb_spec.
Qed.

Lemma coord_index_out bs h vs border : hist_new zero bs = Ok h -> (0 <= border)%Z ->
  length vs = length bs ->
  (forall iv, falls_in bs vs iv ->
     ~ Forall2 (fun b i => (border <= Z.of_nat i < Z.of_nat (nbins b) - border)%Z) bs iv) ->
  binIndexD h vs border = Ok (-1)%Z.
Proof.
  intros Hn Hb Hl N. destruct (new_wf _ _ Hn) as (Hw & Eb & Hd). subst bs.
  apply binIndexD_out; auto. intros iv F. apply N. now apply falls_inb_spec.
Qed.

(** slices *)
Lemma read_stride_spec (d : list T) x0 n : forall idx stride,
  (forall k, k < n -> idx + k * stride < length d) ->
  read_stride d idx stride n = Ok (map (fun k => nth (idx + k * stride) d x0) (seq 0 n)).
Proof.
  induction n as [|n IH]; intros idx stride H; simpl; auto.
  rewrite (vec_get_ok _ _ x0) by (specialize (H 0 ltac:(lia)); lia). simpl.
  rewrite IH. 2:{ intros k Hk. specialize (H (S k) ltac:(lia)). simpl in H. lia. }
  simpl. f_equal. f_equal; [f_equal; lia|]. rewrite <- seq_shift, map_map.
  apply map_ext. intros k. simpl. f_equal. lia.
Qed.

Lemma write_stride_spec x0 vals : forall (d : list T) idx stride, 0 < stride ->
  (forall k, k < length vals -> idx + k * stride < length d) ->
  exists d', write_stride d idx stride vals = Ok d' /\ length d' = length d /\
    (forall k, k < length vals -> nth (idx + k * stride) d' x0 = nth k vals x0) /\
    (forall m, (forall k, k < length vals -> m <> idx + k * stride) -> nth m d' x0 = nth m d x0).
Proof.
  induction vals as [|v vals IH]; intros d idx stride Hs H; simpl in *.
  - exists d. repeat split; auto. intros; lia.
  - rewrite vec_set_ok by (specialize (H 0 ltac:(lia)); lia). simpl.
    destruct (IH (upd d idx v) (idx + stride) stride Hs) as (d' & E & L & A & B).
    { intros k Hk. rewrite upd_length. specialize (H (S k) ltac:(lia)). simpl in H. lia. }
    exists d'. rewrite upd_length in L. repeat split; auto.
    + intros [|k] Hk.
      * rewrite Nat.mul_0_l, Nat.add_0_r. rewrite B.
        -- apply nth_upd_eq. specialize (H 0 ltac:(lia)). lia.
        -- intros k _. nia.
      * replace (idx + S k * stride) with (idx + stride + k * stride) by lia. apply A. lia.
    + intros m Hm. rewrite B.
      * apply nth_upd_neq. specialize (Hm 0 ltac:(lia)). lia.
      * intros k Hk. specialize (Hm (S k) ltac:(lia)). simpl in Hm. lia.
Qed.

Lemma dimSize_spec h iv idim b : wf h -> in_range (h_binners h) iv ->
  nth_error (h_binners h) idim = Some b -> dimSize h idim = Ok (nbins b).
Proof.
  intros Hw Hr Hb. unfold dimSize, ndims.
  assert (Hi : idim < length (h_binners h)) by (apply nth_error_Some; congruence).
  rewrite (wf_strides h Hw), (vec_get_ok _ _ 0) by now rewrite strides_length. simpl.
  pose proof (strides_pos _ _ Hr 1 idim ltac:(lia) Hi) as Hp.
  replace (_ =? 0) with false by lia.
  destruct (Nat.eqb_spec idim (length (h_binners h) - 1)) as [E|E].
  - f_equal. rewrite (wf_data h Hw). pose proof (stride_last (h_binners h) 1 idim b Hb ltac:(lia)) as L.
    rewrite Nat.mul_1_l in L. rewrite L, Nat.mul_comm. apply Nat.div_mul. lia.
  - rewrite (vec_get_ok _ _ 0) by (rewrite strides_length; lia). cbn [obind]. f_equal.
    rewrite (stride_next _ _ _ b) by (auto; lia). rewrite Nat.mul_comm. apply Nat.div_mul. lia.
Qed.

Lemma slice_start_spec h idim iv : wf h -> in_range (h_binners h) iv ->
  slice_start h idim iv = Ok (Z.of_nat (flat (h_binners h) (upd iv idim 0))).
Proof.
  intros Hw Hr. unfold slice_start. apply binIndexL_flat; auto. rewrite upd_length.
  now apply in_range_length.
Qed.

Lemma slice_flat bs iv idim b j : in_range bs iv -> nth_error bs idim = Some b ->
  flat bs (upd iv idim j) = flat bs (upd iv idim 0) + j * nth idim (strides_from 1 bs) 0.
Proof.
  intros Hr Hb. pose proof (flat_upd bs iv 1 idim j b Hb (in_range_length _ _ Hr)). lia.
Qed.

Lemma slice_cell_lt h iv idim b j : wf h -> in_range (h_binners h) iv ->
  nth_error (h_binners h) idim = Some b -> j < nbins b ->
  flat (h_binners h) (upd iv idim 0) + j * nth idim (strides_from 1 (h_binners h)) 0 < length (h_data h).
Proof.
  intros Hw Hr Hb Hj. rewrite <- (slice_flat _ _ _ b) by auto. rewrite (wf_data h Hw).
  apply flat_lt. apply in_range_upd; auto. congruence.
Qed.

Lemma getSlice_cells h iv idim b x0 : wf h -> in_range (h_binners h) iv ->
  nth_error (h_binners h) idim = Some b ->
  getSlice h idim iv =
  Ok (map (fun j => nth (flat (h_binners h) (upd iv idim j)) (h_data h) x0) (seq 0 (nbins b))).
Proof.
  intros Hw Hr Hb.
  assert (Hi : idim < length (h_binners h)) by (apply nth_error_Some; congruence).
  unfold getSlice, ndims. replace (_ <=? idim) with false by lia.
  rewrite (in_range_length _ _ Hr), Nat.eqb_refl. simpl.
  rewrite (dimSize_spec h iv idim b) by auto. simpl. rewrite slice_start_spec by auto. simpl.
  rewrite (wf_strides h Hw), (vec_get_ok _ _ 0) by now rewrite strides_length. simpl.
  rewrite Nat2Z.id. rewrite (read_stride_spec _ x0).
  - f_equal. apply map_ext. intros j. now rewrite <- (slice_flat _ _ _ b).
  - intros k Hk. eapply slice_cell_lt; eauto.
Qed.

Lemma setSlice_cells h iv idim b data x0 : wf h -> in_range (h_binners h) iv ->
  nth_error (h_binners h) idim = Some b -> length data = nbins b ->
  exists h', setSlice h idim iv data = Ok h' /\ wf h' /\ h_binners h' = h_binners h /\
    (forall j, j < nbins b -> nth (flat (h_binners h) (upd iv idim j)) (h_data h') x0 = nth j data x0) /\
    (forall iv', in_range (h_binners h) iv' -> (forall j, iv' <> upd iv idim j) ->
        nth (flat (h_binners h) iv') (h_data h') x0 = nth (flat (h_binners h) iv') (h_data h) x0).
Proof.
  intros Hw Hr Hb Hl.
  assert (Hi : idim < length (h_binners h)) by (apply nth_error_Some; congruence).
  unfold setSlice, ndims. replace (_ <=? idim) with false by lia.
  rewrite (in_range_length _ _ Hr), Nat.eqb_refl. simpl.
  rewrite (dimSize_spec h iv idim b) by auto. simpl. rewrite Hl, Nat.eqb_refl. simpl.
  rewrite slice_start_spec by auto. simpl.
  rewrite (wf_strides h Hw), (vec_get_ok _ _ 0) by now rewrite strides_length. simpl.
  rewrite Nat2Z.id.
  destruct (write_stride_spec x0 data (h_data h) (flat (h_binners h) (upd iv idim 0))
             (nth idim (strides_from 1 (h_binners h)) 0)) as (d' & E & L & A & B).
  { apply (strides_pos _ _ Hr); auto. }
  { intros k Hk. rewrite Hl in Hk. eapply slice_cell_lt; eauto. }
  rewrite E. simpl. eexists; split; [reflexivity|]. split; [|split; [reflexivity|split]].
  - split; simpl; auto. rewrite L. apply (wf_data h Hw).
  - intros j Hj. simpl. rewrite (slice_flat _ _ _ b) by auto. apply A. lia.
  - intros iv' Hr' N. simpl. apply B. intros k Hk E'.
    rewrite <- (slice_flat _ _ _ b) in E' by auto. apply flat_inj in E'; auto.
    + exact (N k E').
    + apply in_range_upd; auto. intros b' Hb'. assert (b' = b) by congruence. subst. lia.
Qed.

End Proofs.

Section Reach.
Context {X T W : Type} (zero : T) (acc : T -> W -> T).
Lemma setSlice_inv (h h' : hist X T) idim iv d : wf h -> in_range (h_binners h) iv ->
  setSlice h idim iv d = Ok h' ->
  exists b, nth_error (h_binners h) idim = Some b /\ length d = nbins b.
Proof.
  intros Hw Hr H. unfold setSlice in H.
  destruct (ndims h <=? idim) eqn:E; [discriminate|].
  destruct (nth_error (h_binners h) idim) as [b|] eqn:Hb.
  2:{ apply nth_error_None in Hb. unfold ndims in E. lia. }
  exists b. split; auto. destruct (negb (length iv =? _)); [discriminate|].
  rewrite (dimSize_spec h iv idim b) in H by auto. simpl in H.
  destruct (Nat.eqb_spec (length d) (nbins b)); [auto|discriminate].
Qed.

Lemma fillBin_dims (h h' : hist X T) vs w : fillBin acc h vs w = Ok h' -> length vs = length (h_binners h).
Proof.
  unfold fillBin, binIndexD, ndims. destruct (Nat.eqb_spec (length vs) (length (h_binners h))); auto.
  simpl. discriminate.
Qed.

Lemma reach_wf bs (h : hist X T) : reach zero acc bs h -> wf h /\ h_binners h = bs.
Proof.
  induction 1 as [h Hn|h vs w h' _ [Hw Hb] Hf|h idim iv d h' _ [Hw Hb] Hr Hs].
  - destruct (new_wf _ _ _ Hn) as (Hw & Hb & _). auto.
  - destruct (fill_spec acc h vs w zero Hw (fillBin_dims _ _ _ _ Hf)) as (h1 & E & Hw1 & Eb & _).
    rewrite E in Hf. injection Hf as ->. split; auto; congruence.
  - subst bs. destruct (setSlice_inv _ _ _ _ _ Hw Hr Hs) as (b & Hb & Hl).
    destruct (setSlice_cells h iv idim b d zero Hw Hr Hb Hl) as (h1 & E & Hw1 & Eb & _).
    rewrite E in Hs. injection Hs as ->. auto.
Qed.

Lemma slice_round_trip bs (h : hist X T) idim iv b data : reach zero acc bs h -> in_range bs iv ->
  nth_error bs idim = Some b -> length data = nbins b ->
  exists h', setSlice h idim iv data = Ok h' /\
    getSlice h' idim iv = Ok data /\
    (forall j, j < nbins b -> cell h' (upd iv idim j) = Ok (nth j data zero)) /\
    (forall iv', in_range bs iv' -> (forall j, iv' <> upd iv idim j) -> cell h' iv' = cell h iv').
Proof.
  intros Hre Hr Hb Hl. destruct (reach_wf _ _ Hre) as [Hw Eb]. subst bs.
  destruct (setSlice_cells h iv idim b data zero Hw Hr Hb Hl) as (h' & E & Hw' & Eb & A & B).
  exists h'. split; auto. split; [|split].
  - rewrite (getSlice_cells h' iv idim b zero) by (rewrite ?Eb; auto). f_equal. rewrite Eb.
    apply (list_ext_nth _ _ zero); rewrite map_length, seq_length; auto.
    intros j Hj.
    rewrite (nth_indep _ zero (nth (flat (h_binners h) (upd iv idim 0)) (h_data h') zero))
      by now rewrite map_length, seq_length.
    rewrite (map_nth (fun j => nth (flat (h_binners h) (upd iv idim j)) (h_data h') zero)).
    rewrite seq_nth by auto. apply A. lia.
  - intros j Hj. rewrite (cell_nth _ _ zero); auto.
    + rewrite Eb, A; auto.
    + rewrite Eb. apply in_range_upd; auto. congruence.
  - intros iv' Hr' N. rewrite !(cell_nth _ _ zero); auto; try congruence.
    rewrite Eb, B; auto.
Qed.

Lemma oseq_map {A B} (f : A -> outcome B) g l : (forall a, In a l -> f a = Ok (g a)) ->
  oseq (map f l) = Ok (map g l).
Proof.
  induction l as [|a l IH]; intros H; simpl; auto. rewrite H by (left; auto). simpl.
  rewrite IH; auto. intros; apply H; right; auto.
Qed.

Lemma getSlice_is_cells bs (h : hist X T) idim iv b : reach zero acc bs h -> in_range bs iv ->
  nth_error bs idim = Some b ->
  getSlice h idim iv = oseq (map (fun j => cell h (upd iv idim j)) (seq 0 (nbins b))).
Proof.
  intros Hre Hr Hb. destruct (reach_wf _ _ Hre) as [Hw Eb]. subst bs.
  rewrite (getSlice_cells h iv idim b zero) by auto. symmetry. apply oseq_map.
  intros j Hj. apply in_seq in Hj. apply cell_nth; auto. apply in_range_upd; auto.
  intros b' Hb'. assert (b' = b) by congruence. subst. lia.
Qed.

End Reach.

(** Conservation of the total weight. *)
Section Total.
Context {X T : Type} (zero : T) (add : T -> T -> T).
Hypothesis add_0_r : forall a, add a zero = a.
Hypothesis add_comm : forall a b, add a b = add b a.
Hypothesis add_assoc : forall a b c, add a (add b c) = add (add a b) c.

Fixpoint tsum (l : list T) : T := match l with [] => zero | x :: l' => add x (tsum l') end.

Lemma tsum_upd l i x w : nth_error l i = Some x -> tsum (upd l i (add x w)) = add (tsum l) w.
Proof.
  revert i; induction l as [|y l IH]; intros [|i] H; simpl in *; try discriminate.
  - injection H as ->. rewrite <- !add_assoc. f_equal. apply add_comm.
  - rewrite (IH i H), <- !add_assoc. reflexivity.
Qed.

Lemma collect_inside (bs : list (binner X)) : forall vs, length vs = length bs ->
  (exists zs, collect 0 bs vs = Some zs) <-> inside bs vs = true.
Proof.
  induction bs as [|b bs IH]; intros [|v vs] Hl; simpl in *; try discriminate.
  - split; eauto.
  - specialize (IH vs ltac:(lia)). unfold inside in *. simpl.
    destruct (_ || _) eqn:E.
    + split; [intros (zs & H); discriminate|]. intros H. apply andb_prop in H as [H _]. lia.
    + replace ((0 <=? cindex b v)%Z && _) with true by lia. simpl.
      rewrite <- IH. destruct (collect 0 bs vs); simpl; split; intros (zs & H); eauto; discriminate.
Qed.

Lemma fills_total evs : forall (h : hist X T), wf h ->
  Forall (fun e => length (fst e) = length (h_binners h)) evs ->
  exists h', fills add h evs = Ok h' /\
    tsum (h_data h') = fold_left add (map snd (filter (fun e => inside (h_binners h) (fst e)) evs)) (tsum (h_data h)).
Proof.
  induction evs as [|[vs w] evs IH]; intros h Hw Hf.
  - exists h. auto.
  - inversion Hf as [|? ? Hl Hf']; subst. simpl in Hl.
    destruct (fill_spec add h vs w zero Hw Hl) as (h1 & E1 & Hw1 & Eb & Hc).
    unfold fills. simpl. rewrite E1. simpl.
    destruct (IH h1 Hw1) as (h2 & E2 & Hs). { now rewrite Eb. }
    exists h2. split; [exact E2|]. rewrite Hs, Eb.
    pose proof (collect_inside (h_binners h) vs Hl) as I.
    pose proof (collect_spec 0 (h_binners h) ltac:(lia) vs Hl) as C.
    clear Hc IH E2 Hs. unfold fillBin, binIndexD, ndims in E1.
    rewrite Hl, Nat.eqb_refl in E1. simpl in E1.
    destruct (collect 0 (h_binners h) vs) as [zs|].
    + rewrite (proj1 I) by eauto. simpl.
      destruct C as (iv & -> & F & G). pose proof (falls_inb_range _ _ _ F) as Hr.
      rewrite binIndexL_flat in E1; auto using in_range_length. simpl in E1.
      replace (0 <=? Z.of_nat _)%Z with true in E1 by lia. rewrite Nat2Z.id in E1.
      assert (Hlt : flat (h_binners h) iv < length (h_data h)).
      { rewrite (wf_data h Hw). now apply flat_lt. }
      rewrite (vec_get_ok _ _ zero) in E1 by auto. simpl in E1. rewrite vec_set_ok in E1 by auto.
      simpl in E1. injection E1 as <-. simpl. rewrite tsum_upd; auto.
      now apply nth_error_nth'.
    + simpl in E1. injection E1 as <-.
      destruct (inside (h_binners h) vs) eqn:Ei; auto.
      exfalso. destruct (proj2 I eq_refl) as (zs & H). discriminate.
Qed.

Lemma tsum_repeat n : tsum (repeat zero n) = zero.
Proof. induction n; simpl; auto. rewrite IHn. apply add_0_r. Qed.

Lemma fills_total_new bs (h : hist X T) evs : hist_new zero bs = Ok h ->
  Forall (fun e => length (fst e) = length bs) evs ->
  exists h', fills add h evs = Ok h' /\
    fold_right add zero (h_data h') =
    fold_left add (map snd (filter (fun e => inside bs (fst e)) evs)) zero.
Proof.
  intros Hn Hf. destruct (new_wf _ _ _ Hn) as (Hw & Hb & Hd). subst bs.
  destruct (fills_total evs h Hw Hf) as (h' & E & S). exists h'. split; auto.
  assert (Et : forall l, fold_right add zero l = tsum l) by (induction l; simpl; congruence).
  rewrite Et, S. f_equal. rewrite Hd. apply tsum_repeat.
Qed.
End Total.

(** sumRange over the last axis from bin 0. *)
Section SumProofs.
Context {X T : Type} (zero : T) (add : T -> T -> T).

Lemma omap_ok {A B} (f : A -> outcome B) g l : (forall a, In a l -> f a = Ok (g a)) ->
  omap f l = Ok (map g l).
Proof.
  induction l as [|a l IH]; intros H; simpl; auto. rewrite H by (left; auto). simpl.
  rewrite IH; auto. intros; apply H; right; auto.
Qed.

Lemma flat_app (bs : list (binner X)) : forall iv b j, length iv = length bs ->
  flat (bs ++ [b]) (iv ++ [j]) = flat bs iv + prod bs * j.
Proof.
  induction bs as [|c bs IH]; intros [|i iv] b j H; simpl in *; try discriminate; try lia.
  rewrite IH by lia. lia.
Qed.

Lemma prod_app (bs : list (binner X)) b : prod (bs ++ [b]) = prod bs * nbins b.
Proof. induction bs as [|c bs IH]; simpl; [lia|]. rewrite IH. lia. Qed.

Lemma stride_of_last (bs : list (binner X)) b : forall s,
  nth (length bs) (strides_from s (bs ++ [b])) 0 = s * prod bs.
Proof. induction bs as [|c bs IH]; intros s; simpl; [lia|]. rewrite IH. lia. Qed.

Lemma sumRange_last (h : hist X T) bs b last iv0 : wf h -> h_binners h = bs ++ [b] -> bs <> [] ->
  in_range (bs ++ [b]) iv0 ->
  0 < last <= nbins b ->
  exists h', sumRange zero add h (length bs) 0 last = Ok h' /\ h_binners h' = bs /\
    forall iv, in_range bs iv ->
      cell h' iv = obind (oseq (map (fun j => cell h (iv ++ [j])) (seq 0 last)))
                         (fun xs => Ok (fold_left add xs zero)).
Proof.
  intros Hw Hb Hne Hr0 Hlast. unfold sumRange, ndims. rewrite Hb, app_length.
  change (length [b]) with 1.
  replace (_ <=? length bs) with false by lia.
  replace (last <=? 0) with false by lia.
  assert (Hnb : nth_error (bs ++ [b]) (length bs) = Some b).
  { rewrite nth_error_app2, Nat.sub_diag; auto. }
  rewrite (dimSize_spec h iv0 (length bs) b) by (rewrite ?Hb; auto). cbn [obind].
  replace (nbins b <=? 0) with false by lia. replace (nbins b <? last) with false by lia.
  assert (Ebs : firstn (length bs) (bs ++ [b]) ++ skipn (S (length bs)) (bs ++ [b]) = bs).
  { rewrite skipn_all2 by (rewrite app_length; simpl; lia). rewrite app_nil_r.
    rewrite firstn_app, firstn_all, Nat.sub_diag. simpl. apply app_nil_r. }
  cbv zeta. rewrite Ebs. destruct (new_ok (T:=T) zero bs Hne) as (ret & Hret). rewrite Hret. cbn [obind].
  destruct (new_wf _ _ _ Hret) as (Hwr & Hbr & Hdr).
  rewrite (wf_strides h Hw), Hb.
  rewrite (vec_get_ok _ _ 0) by (rewrite strides_length, app_length; simpl; lia). cbn [obind].
  rewrite stride_of_last, Nat.mul_1_l, Nat.sub_0_r. rewrite Hdr, repeat_length.
  set (g := fun iout => fold_left add (map (fun k => nth (iout + k * prod bs) (h_data h) zero) (seq 0 last)) zero).
  rewrite (omap_ok _ g).
  2:{ intros iout Hin. apply in_seq in Hin. unfold sum_out, g.
      rewrite (read_stride_spec _ zero); [reflexivity|].
      intros k Hk. rewrite (wf_data h Hw), Hb, prod_app. nia. }
  cbn [obind]. eexists; split; [reflexivity|]. split; [exact Hbr|].
  intros iv Hr. erewrite cell_nth with (d := zero).
  2:{ split; simpl; [apply Hwr|]. rewrite map_length, seq_length, Hbr. auto. }
  2:{ simpl. now rewrite Hbr. }
  simpl. rewrite Hbr. pose proof (flat_lt _ _ Hr) as Hlt.
  rewrite (nth_indep _ zero (g 0)) by now rewrite map_length, seq_length.
  rewrite (map_nth g), seq_nth by auto. simpl.
  rewrite (oseq_map _ (fun j => nth (flat bs iv + j * prod bs) (h_data h) zero)).
  { reflexivity. }
  intros j Hj. apply in_seq in Hj. rewrite (cell_nth _ _ zero); auto.
  - rewrite Hb, flat_app by now apply in_range_length. rewrite (Nat.mul_comm (prod bs)). reflexivity.
  - rewrite Hb. apply Forall2_app; auto. constructor; auto. lia.
Qed.
End SumProofs.

From Coq Require Import Reals Lra.
From Verif Require Import Base AccumModel AccumProofs CountsModel CountsSpec.
Local Open Scope outcome_scope.

Lemma mfold_flat {S A B C} (h : S -> C -> outcome S) (e : A -> B -> C) (Ks : list B) : forall (Js : list A) s,
  mfold (fun s j => mfold (fun s k => h s (e j k)) Ks s) Js s = mfold h (flat_map (fun j => map (e j) Ks) Js) s.
Proof.
  assert (forall j s, mfold (fun s k => h s (e j k)) Ks s = mfold h (map (e j) Ks) s) as H1.
  { intros j. induction Ks as [|k l IH]; intros s; simpl; auto. destruct (h s (e j k)); simpl; auto. }
  induction Js as [|j Js IH]; intros s; simpl; auto. rewrite mfold_app, <- H1.
  destruct (mfold (fun s k => h s (e j k)) Ks s); simpl; auto.
Qed.
Lemma mfold_set (f : nat -> R) n (h : list R -> nat -> outcome (list R)) :
  (forall wts i, length wts = n -> i < n -> h wts i = Ok (upd wts i (f i))) ->
  forall L wts, length wts = n -> Forall (fun i => i < n) L ->
  exists r, mfold h L wts = Ok r /\ length r = n /\ forall i, nth i r 0%R = if in_dec Nat.eq_dec i L then f i else nth i wts 0%R.
Proof.
  intros Hh. induction L as [|a L IH]; intros wts HL F; simpl.
  - exists wts. auto.
  - inversion F; subst. rewrite Hh by auto. simpl.
    destruct (IH (upd wts a (f a))) as (r & E & Hr & Hn); auto; [now rewrite upd_length|]. exists r. split; auto. split; auto.
    intros i. rewrite Hn. destruct (in_dec Nat.eq_dec i L); destruct (Nat.eq_dec a i) as [->|Hne]; auto.
    + now rewrite nth_upd_eq.
    + now rewrite nth_upd_neq.
Qed.

Section S.
Variable s : shape.
Notation np := (npix s).
Notation N := (s_ne s * npix s)%nat.
Lemma idx_lt k p : k < s_ne s -> p < np -> k * np + p < N.
Proof. intros. nia. Qed.

Definition wval (data w : list R) (i : nat) : R :=
  let x := nth i w 0%R in if Rltb 0 x && Rltb 0 (nth i data 0%R) then (nth i data 0 * x)%R else 0%R.
Lemma fill_ok data w : length data = N -> length w = N ->
  exists r, fillWeightedCounts s data (Some w) = Ok (Some r) /\ length r = N /\ forall i, i < N -> nth i r 0%R = wval data w i.
Proof.
  intros HD HW. unfold fillWeightedCounts.
  set (h := fun (wts : list R) (idx : nat) => wi <- vec_get w idx ;; d <- vec_get data idx ;;
             vec_set wts idx (d * (if Rleb wi 0 || Rleb d 0 then 0%R else wi))%R).
  change (fun wts j => mfold _ (seq 0 (s_ne s)) wts) with (fun wts j => mfold (fun wts k => h wts (k * np + j)) (seq 0 (s_ne s)) wts).
  rewrite (mfold_flat h (fun j k => k * np + j)).
  destruct (mfold_set (wval data w) N h) with (L := flat_map (fun j => map (fun k => k * np + j) (seq 0 (s_ne s))) (seq 0 np)) (wts := repeat 0%R N)
    as (r & E & Hr & Hn).
  - intros wts i HL Hi. unfold h. rewrite (vec_get_ok w i 0%R), (vec_get_ok data i 0%R) by lia. simpl. rewrite vec_set_ok by lia. f_equal. f_equal.
    unfold wval. destruct (Rleb_spec (nth i w 0%R) 0), (Rltb_spec 0 (nth i w 0%R)); try lra; simpl; try lra.
    destruct (Rleb_spec (nth i data 0%R) 0), (Rltb_spec 0 (nth i data 0%R)); try lra; simpl; lra.
  - apply repeat_length.
  - apply Forall_forall. intros i Hi. apply in_flat_map in Hi as (j & Hj & Hi). apply in_map_iff in Hi as (k & <- & Hk).
    apply in_seq in Hj, Hk. apply idx_lt; lia.
  - rewrite E. simpl. exists r. split; auto. split; auto. intros i Hi. rewrite Hn. destruct (in_dec _ _ _) as [|Hno]; auto.
    exfalso. apply Hno. apply in_flat_map. assert (np <> 0) by (intros E0; rewrite E0, Nat.mul_0_r in Hi; lia).
    exists (i mod np). split; [apply in_seq; pose proof (Nat.mod_upper_bound i np); lia|].
    apply in_map_iff. exists (i / np). split; [rewrite Nat.mul_comm; symmetry; apply Nat.div_mod; auto|].
    apply in_seq. split; [lia|]. apply Nat.div_lt_upper_bound; auto. lia.
Qed.

Section F.
Variables (d : list R) (HD : length d = N).
Definition pl (k : nat) : list nat := filter (fun p => Rltb 0 (nth (k * np + p) d 0%R)) (seq 0 np).
Lemma inner_ok k (Hk : k < s_ne s) : forall (L : list nat) filled p, p + length L <= np ->
  mfold (fun (st : list nat * nat) (_ : nat) =>
           let (filled, i) := st in
           x <- vec_get d i ;;
           Ok (if Rltb 0 x then filled ++ [i mod np] else filled, S i)) L (filled, k * np + p) =
  Ok (filled ++ filter (fun p => Rltb 0 (nth (k * np + p) d 0%R)) (seq p (length L)), k * np + p + length L).
Proof.
  induction L as [|a L IH]; intros filled p HL; simpl in *.
  - rewrite app_nil_r, Nat.add_0_r. reflexivity.
  - rewrite (vec_get_ok d _ 0%R) by (rewrite HD; apply idx_lt; lia). simpl.
    rewrite Nat.add_comm with (n := k * np). rewrite Nat.mod_add by lia. rewrite Nat.mod_small by lia.
    replace (S (p + k * np)) with (k * np + S p) by lia. rewrite IH by lia. f_equal. f_equal; [|lia].
    replace (p + k * np) with (k * np + p) by lia. destruct (Rltb 0 (nth (k * np + p) d 0%R)); auto. now rewrite <- app_assoc.
Qed.
Definition off (j : nat) : nat := length (flat_map pl (seq 0 j)).
Lemma upd_mid {A} (a : list A) x b y : upd (a ++ x :: b) (length a) y = a ++ y :: b.
Proof. induction a; simpl; congruence. Qed.
Lemma outer_ok : forall n k, k + n = s_ne s ->
  mfold (fun (st : list nat * list nat * nat) k =>
         let '(filled, first, i) := st in
         first' <- vec_set first k (length filled) ;;
         fi <- mfold (fun (st : list nat * nat) (_ : nat) =>
                 let (filled, i) := st in
                 x <- vec_get d i ;;
                 Ok (if Rltb 0 x then filled ++ [i mod np] else filled, S i)) (seq 0 np) (filled, i) ;;
         Ok (fst fi, first', snd fi)) (seq k n) (flat_map pl (seq 0 k), map off (seq 0 k) ++ repeat 0 (s_ne s + 1 - k), k * np) =
  Ok (flat_map pl (seq 0 (s_ne s)), map off (seq 0 (s_ne s)) ++ [0], N).
Proof.
  induction n as [|n IH]; intros k Hk.
  - simpl. replace k with (s_ne s) by lia. replace (s_ne s + 1 - s_ne s) with 1 by lia. reflexivity.
  - cbn [seq mfold].
    rewrite vec_set_ok by (rewrite app_length, map_length, seq_length, repeat_length; lia). cbn [obind].
    replace (k * np) with (k * np + 0) by lia. rewrite inner_ok by (rewrite ?seq_length; lia). rewrite seq_length. cbn [obind fst snd].
    specialize (IH (S k) ltac:(lia)). rewrite <- IH. f_equal. f_equal; [f_equal|].
    + rewrite seq_S, flat_map_app. simpl. now rewrite app_nil_r.
    + replace (s_ne s + 1 - k) with (S (s_ne s + 1 - S k)) by lia. simpl repeat.
      pose proof (upd_mid (map off (seq 0 k)) 0 (repeat 0 (s_ne s + 1 - S k)) (length (flat_map pl (seq 0 k)))) as E.
      rewrite map_length, seq_length in E. rewrite E. rewrite seq_S, map_app, <- app_assoc. reflexivity.
    + simpl. lia.
Qed.
Lemma identify_ok : identifyFilledPixels s d = Ok (flat_map pl (seq 0 (s_ne s)), map off (seq 0 (S (s_ne s)))).
Proof.
  unfold identifyFilledPixels. pose proof (outer_ok (s_ne s) 0 eq_refl) as E. simpl in E. rewrite Nat.sub_0_r in E. rewrite E. cbn [obind].
  rewrite vec_set_ok by (rewrite app_length, map_length, seq_length; simpl; lia). cbn [obind]. f_equal. f_equal.
  pose proof (upd_mid (map off (seq 0 (s_ne s))) 0 [] (length (flat_map pl (seq 0 (s_ne s))))) as E2.
  rewrite map_length, seq_length in E2. rewrite E2. rewrite seq_S, map_app. reflexivity.
Qed.
Lemma nth_off j : j <= s_ne s -> nth j (map off (seq 0 (S (s_ne s)))) 0 = off j.
Proof.
  intros H. rewrite (nth_indep _ 0 (off 0)) by (rewrite map_length, seq_length; lia). rewrite map_nth. rewrite seq_nth by lia. reflexivity.
Qed.
Lemma slice_ok k : k < s_ne s -> firstn (off (S k) - off k) (skipn (off k) (flat_map pl (seq 0 (s_ne s)))) = pl k.
Proof.
  intros H. assert (off (S k) = off k + length (pl k)) as E.
  { unfold off. rewrite seq_S, flat_map_app, app_length. simpl. rewrite app_nil_r. reflexivity. }
  replace (s_ne s) with (k + (1 + (s_ne s - S k))) by lia. rewrite seq_app, flat_map_app. simpl.
  unfold off at 3. rewrite skipn_app, skipn_all, Nat.sub_diag. simpl. rewrite E.
  replace (off k + length (pl k) - off k) with (length (pl k) + 0) by lia. rewrite firstn_app_2. simpl. apply app_nil_r.
Qed.
End F.

(** spectra *)
Section Sp.
Variables (d w : list R) (HD : length d = N) (HW : length w = N).
Definition part (v : list R) (k p n : nat) : R := Rsum (map (fun q => nth (k * np + q) v 0%R) (seq p n)).
Definition acc2 (st : R * R * nat) (_ : nat) : outcome (R * R * nat) :=
  let '(ntot, ntot_wt, indx) := st in
  x <- vec_get d indx ;; y <- vec_get w indx ;; Ok ((ntot + x)%R, (ntot_wt + y)%R, S indx).
Lemma acc_ok k (Hk : k < s_ne s) : forall (L : list nat) a b p, p + length L <= np ->
  mfold acc2 L (a, b, k * np + p) = Ok ((a + part d k p (length L))%R, (b + part w k p (length L))%R, k * np + p + length L).
Proof.
  induction L as [|x L IH]; intros a b p HL; simpl in *.
  - unfold part, Rsum. simpl. rewrite !Rplus_0_r, Nat.add_0_r. reflexivity.
  - unfold acc2 at 1. rewrite (vec_get_ok d _ 0%R), (vec_get_ok w _ 0%R) by (rewrite ?HD, ?HW; apply idx_lt; lia). cbn [obind].
    replace (S (k * np + p)) with (k * np + S p) by lia. rewrite IH by lia. f_equal. f_equal; [|lia]. unfold part. unfold Rsum; cbn [seq map length fold_right].
    f_equal; ring.
Qed.
Lemma flat_seq_len : length (flat_map (fun _ : nat => map (fun k : nat => k) (seq 0 (s_nx s))) (seq 0 (s_ny s))) = np.
Proof.
  unfold npix. generalize (seq_length (s_ny s) 0). generalize (seq 0 (s_ny s)). intros l Hl. rewrite <- Hl. clear Hl.
  induction l as [|x l IH]; simpl; [lia|]. rewrite app_length, map_length, seq_length, IH. lia.
Qed.
Lemma wcs_plane k : k < s_ne s ->
  mfold (fun st (_ : nat) => mfold acc2 (seq 0 (s_nx s)) st) (seq 0 (s_ny s)) (0%R, 0%R, k * np) = Ok (part d k 0 np, part w k 0 np, S k * np).
Proof.
  intros Hk. pose proof (mfold_flat acc2 (fun _ k : nat => k) (seq 0 (s_nx s)) (seq 0 (s_ny s)) (0%R, 0%R, k * np)) as E. cbv beta in E.
  change (fun st (_ : nat) => mfold acc2 (seq 0 (s_nx s)) st) with (fun st (j : nat) => mfold (fun s0 k0 => acc2 s0 k0) (seq 0 (s_nx s)) st). rewrite E.
  pose proof (acc_ok k Hk (flat_map (fun _ : nat => map (fun k0 : nat => k0) (seq 0 (s_nx s))) (seq 0 (s_ny s))) 0 0 0) as E2.
  rewrite flat_seq_len in E2. rewrite Nat.add_0_r in E2. rewrite E2 by lia. rewrite !Rplus_0_l. f_equal. f_equal. simpl. lia.
Qed.
Lemma hpx_plane k : k < s_ne s -> mfold acc2 (seq 0 (s_nx s * s_ny s)) (0%R, 0%R, k * np) = Ok (part d k 0 np, part w k 0 np, S k * np).
Proof.
  intros Hk. pose proof (acc_ok k Hk (seq 0 (s_nx s * s_ny s)) 0 0 0) as E2. rewrite seq_length in E2. rewrite Nat.add_0_r in E2.
  rewrite E2 by (unfold npix; lia). rewrite !Rplus_0_l. unfold npix. f_equal. f_equal. simpl. lia.
Qed.
Lemma spec_outer (plane : R * R * nat -> outcome (R * R * nat)) :
  (forall k, k < s_ne s -> plane (0%R, 0%R, k * np) = Ok (part d k 0 np, part w k 0 np, S k * np)) ->
  forall n k, k + n = s_ne s -> 
  mfold (fun (st : list R * list R * nat) (_ : nat) =>
         let '(sp, spw, indx) := st in
         t <- plane (0%R, 0%R, indx) ;;
         let '(ntot, ntot_wt, indx) := t in
         Ok (sp ++ [ntot], spw ++ [ntot_wt], indx)) (seq k n)
     (map (fun k => part d k 0 np) (seq 0 k), map (fun k => part w k 0 np) (seq 0 k), k * np) =
  Ok (map (fun k => part d k 0 np) (seq 0 (s_ne s)), map (fun k => part w k 0 np) (seq 0 (s_ne s)), N).
Proof.
  intros Hp. induction n as [|n IH]; intros k Hk.
  - simpl. replace k with (s_ne s) by lia. reflexivity.
  - cbn [seq mfold]. rewrite Hp by lia. cbn [obind]. rewrite <- (IH (S k) ltac:(lia)). rewrite seq_S, !map_app. reflexivity.
Qed.
Lemma spectrum_ok : computeCountsSpectrum s d w = Ok (map (fun k => part d k 0 np) (seq 0 (s_ne s)), map (fun k => part w k 0 np) (seq 0 (s_ne s))).
Proof.
  unfold computeCountsSpectrum. destruct (s_hpx s).
  - unfold spectrum_healpix. pose proof (spec_outer (mfold acc2 (seq 0 (s_nx s * s_ny s))) hpx_plane (s_ne s) 0 eq_refl) as E. simpl in E.
    unfold acc2 in E. rewrite E. reflexivity.
  - unfold spectrum_wcs. pose proof (spec_outer (mfold (fun st (_ : nat) => mfold acc2 (seq 0 (s_nx s)) st) (seq 0 (s_ny s))) wcs_plane (s_ne s) 0 eq_refl) as E. simpl in E.
    unfold acc2 in E. rewrite E. reflexivity.
Qed.
End Sp.

(** The cache agrees with the current counts and weights. *)
Definition coherent (cc : ccache) (c : current) : Prop :=
  cc_data cc = cur_counts c /\ cc_wmap cc = cur_weights c /\
  length (cc_first cc) = S (s_ne s) /\ nth 0 (cc_first cc) 0 = 0 /\ nth (s_ne s) (cc_first cc) 0 = length (cc_filled cc) /\
  (forall k, k < s_ne s -> nth k (cc_first cc) 0 <= nth (S k) (cc_first cc) 0 <= length (cc_filled cc)) /\
  (forall k, k < s_ne s -> walked cc k = filled_in_plane s c k) /\
  cc_spec cc = map (fun k => plane_sum s (count_at s c k)) (seq 0 (s_ne s)) /\
  cc_spec_wt cc = map (fun k => plane_sum s (weighted_at s c k)) (seq 0 (s_ne s)).

Lemma off_mono d j k : j <= k -> off d j <= off d k.
Proof. intros H. unfold off. replace k with (j + (k - j)) by lia. rewrite seq_app, flat_map_app, app_length. lia. Qed.

Lemma refresh_ok data orig wmap : length data = N -> (forall w, wmap = Some w -> length w = N) ->
  exists cc, refresh s data orig wmap = Ok cc /\ cc_orig cc = orig /\ coherent cc (mk_cur data wmap).
Proof.
  intros HD HW. unfold refresh.
  assert (exists wdata d, fillWeightedCounts s data wmap = Ok wdata /\ get_data data wdata (has_w wdata) = Ok d /\ length d = N /\
     forall k p, k < s_ne s -> p < np -> nth (k * np + p) d 0%R = weighted_at s (mk_cur data wmap) k p) as (wdata & d & E1 & E2 & HL & Hd).
  { destruct wmap as [w|].
    - destruct (fill_ok data w HD (HW w eq_refl)) as (r & E & Hr & Hn). exists (Some r), r. split; auto. split; auto. split; auto.
      intros k p Hk Hp. rewrite Hn by (apply idx_lt; auto). reflexivity.
    - exists None, data. repeat split; auto. }
  rewrite E1. cbn [obind]. rewrite E2. cbn [obind]. rewrite identify_ok by auto. cbn [obind]. rewrite spectrum_ok by auto. cbn [obind fst snd].
  eexists. split; [reflexivity|]. split; [reflexivity|]. unfold coherent. cbn [cc_data cc_wmap cc_first cc_filled cc_spec cc_spec_wt cur_counts cur_weights].
  split; auto. split; auto. split; [now rewrite map_length, seq_length|]. split; [reflexivity|].
  split; [now rewrite nth_off by lia|]. split.
  - intros k Hk. rewrite !nth_off by lia. split; [apply off_mono; lia|]. change (length (flat_map (pl d) (seq 0 (s_ne s)))) with (off d (s_ne s)). apply off_mono; lia.
  - split; [|split].
    + intros k Hk. unfold walked. cbn [cc_first cc_filled]. rewrite !nth_off by lia. rewrite slice_ok by auto. unfold pl, filled_in_plane.
      apply filter_ext_in. intros p Hp. apply in_seq in Hp. rewrite Hd by lia. reflexivity.
    + reflexivity.
    + apply map_ext_in. intros k Hk. apply in_seq in Hk. unfold part, plane_sum. f_equal. apply map_ext_in. intros p Hp. apply in_seq in Hp. apply Hd; lia.
Qed.

Variables (W : nat -> list R) (HWl : forall n, length (W n) = N).
Lemma run_ok : forall ops cc c (dropped : bool), coherent cc c -> length (cur_counts c) = N -> (forall w, cur_weights c = Some w -> length w = N) ->
  (if dropped then cc_orig cc = None else cur_weights c = option_map W (cc_orig cc)) -> fine dropped ops = true ->
  exists cc', cc_run W s cc ops = Ok cc' /\ coherent cc' (cur_run W ops c).
Proof.
  induction ops as [|o ops IH]; intros cc c dropped H HL HWc Ho F; simpl.
  - exists cc. auto.
  - unfold cur_run. simpl. pose proof H as (H1 & H2 & Hrest). destruct o as [x|w|]; simpl in *.
    + rewrite H1. destruct (Nat.eqb_spec (length x) (length (cur_counts c))) as [Ex|Ex]; simpl.
      * rewrite H2. destruct (refresh_ok x (cc_orig cc) (cur_weights c)) as (cc' & E & Eo & Hc); auto; [congruence|]. rewrite E.
        apply (IH cc' (mk_cur x (cur_weights c)) dropped); auto; simpl; [congruence|]. now rewrite Eo.
      * apply (IH cc c dropped); auto.
    + assert (forall cc', coherent cc' (mk_cur (cur_counts c) (option_map W w)) -> cc_orig cc' = w -> fine false ops = true ->
        exists cc'', cc_run W s cc' ops = Ok cc'' /\ coherent cc'' (fold_left (cur_step W) ops (mk_cur (cur_counts c) (option_map W w)))) as Hgo.
      { intros cc' Hc Eo Ff. apply (IH cc' (mk_cur (cur_counts c) (option_map W w)) false); auto; simpl.
        - intros w' Ew. destruct w; simpl in Ew; [injection Ew as <-; auto|discriminate].
        - now rewrite Eo. }
      assert (fine false ops = true /\ (opt_eqb w (cc_orig cc) = true -> dropped = false)) as [Ff Hd].
      { destruct w; [split; auto|apply andb_true_iff in F as [F1 F2]; split; auto; intros _; now apply negb_true_iff].
        destruct (cc_orig cc) eqn:Eo; [|discriminate]. intros _. destruct dropped; [discriminate|auto]. }
      destruct (opt_eqb w (cc_orig cc)) eqn:Eq.
      * rewrite (Hd eq_refl) in Ho. assert (w = cc_orig cc) as Ew.
        { destruct w, (cc_orig cc); simpl in Eq; try discriminate; auto. apply Nat.eqb_eq in Eq. congruence. }
        assert (c = mk_cur (cur_counts c) (option_map W w)) as Ec by (destruct c; simpl in *; congruence).
        rewrite Ec in H. apply (Hgo cc); auto.
      * rewrite H1. destruct (refresh_ok (cur_counts c) w (option_map W w)) as (cc' & E & Eo & Hc); auto.
        { intros w' Ew. destruct w; simpl in Ew; [injection Ew as <-; auto|discriminate]. }
        rewrite E. apply Hgo; auto.
    + apply (IH _ c true); auto.
Qed.
End S.

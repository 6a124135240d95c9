From Coq Require Import Reals Lra Sorted.
From Verif Require Import Base AccumModel AccumProofs SparseModel SparseProofs SmapModel SmapSpec CountsProofs.
Local Open Scope outcome_scope.

Lemma upd_upd {A} (l : list A) i x y : upd (upd l i x) i y = upd l i y.
Proof. revert i; induction l; intros [|i]; simpl; auto. now rewrite IHl. Qed.
Lemma upd_same {A} (l : list A) i d : i < length l -> upd l i (nth i l d) = l.
Proof. revert i; induction l; intros [|i] H; simpl in *; try lia; auto. rewrite IHl by lia. auto. Qed.
Lemma getZ_ok {A} (l : list A) i d : i < length l -> getZ l (Z.of_nat i) = Ok (nth i l d).
Proof. intros H. unfold getZ. destruct (Z.ltb_spec (Z.of_nat i) 0); [lia|]. rewrite Nat2Z.id. apply vec_get_ok; auto. Qed.
Lemma nth_map_seq' {A} (f : nat -> A) n i d : i < n -> nth i (map f (seq 0 n)) d = f i.
Proof. intros H. rewrite (nth_indep _ d (f 0)) by (rewrite map_length, seq_length; lia). rewrite map_nth, seq_nth by lia. reflexivity. Qed.
Lemma mfold_ext_in {A S} (f g : S -> A -> outcome S) l : (forall s a, In a l -> f s a = g s a) -> forall s, mfold f l s = mfold g l s.
Proof.
  intros H. induction l as [|a l IH]; intros s; simpl; auto. rewrite H by (now left). destruct (g s a); simpl; auto.
  apply IH. intros s' a' Ha. apply H. now right.
Qed.

(** Spectral weights. *)
Definition wts_of (spec en ler : list R) : list (R * R) :=
  map (fun i => ((nth i spec 0 * nth i en 0 * nth i ler 0 / 2)%R, (nth (S i) spec 0 * nth (S i) en 0 * nth i ler 0 / 2)%R)) (seq 0 (length ler)).
Lemma gsw_ok spec en ler : length spec = S (length ler) -> length en = S (length ler) -> get_spectral_weights spec en ler = Ok (wts_of spec en ler).
Proof.
  intros H1 H2. unfold get_spectral_weights, wts_of.
  assert (forall n a l, a + n = length ler ->
    mfold (fun ws i => s0 <- vec_get spec i ;; e0 <- vec_get en i ;; l <- vec_get ler i ;;
            s1 <- vec_get spec (S i) ;; e1 <- vec_get en (S i) ;;
            Ok (ws ++ [((s0 * e0 * l / 2)%R, (s1 * e1 * l / 2)%R)])) (seq a n) l =
    Ok (l ++ map (fun i => ((nth i spec 0 * nth i en 0 * nth i ler 0 / 2)%R, (nth (S i) spec 0 * nth (S i) en 0 * nth i ler 0 / 2)%R)) (seq a n))) as H.
  { induction n as [|n IH]; intros a l Ha; [simpl; now rewrite app_nil_r|]. cbn [seq mfold].
    rewrite !(vec_get_ok _ _ 0%R) by lia. cbn [obind]. rewrite IH by lia. cbn [map]. now rewrite <- app_assoc. }
  rewrite H by lia. reflexivity.
Qed.
Lemma wts_len spec en ler : length (wts_of spec en ler) = length ler.
Proof. unfold wts_of. now rewrite map_length, seq_length. Qed.
Lemma wts_nth spec en ler t : t < length ler ->
  nth t (wts_of spec en ler) (0%R, 0%R) = ((nth t spec 0 * nth t en 0 * nth t ler 0 / 2)%R, (nth (S t) spec 0 * nth (S t) en 0 * nth t ler 0 / 2)%R).
Proof. intros H. unfold wts_of. now rewrite nth_map_seq'. Qed.

Section S.
Variables (s : smap) (OK : sm_ok s).
Notation np := (sm_np s). Notation nb := (sm_nb s). Notation eb := (sm_eb s). Notation NT := (sm_nb s + 2 * sm_eb s).

Lemma cell_assoc l i : cell l i = match assoc i l with Some x => x | None => 0%R end.
Proof. induction l as [|[j x] l IH]; simpl; auto. destruct (j =? i); auto. Qed.
Lemma sm_at_ok i : i < (NT + 1) * np -> sm_at s (Z.of_nat i) = Ok (pix s i).
Proof.
  intros H. unfold sm_at, pix. destruct (Z.ltb_spec (Z.of_nat i) 0); [lia|]. rewrite Nat2Z.id. pose proof (so_img s OK) as Hi. rewrite (so_en s OK) in Hi.
  destruct (sm_img s) as [m|v].
  - apply vec_get_ok. lia.
  - destruct Hi as (Hn & Hs & _). rewrite sv_get_assoc by exact Hs. rewrite cell_assoc, Hn. reflexivity.
Qed.
Lemma at_plane t p : t <= NT -> p < np -> sm_at s (Z.of_nat t * Z.of_nat np + Z.of_nat p) = Ok (plane s t p).
Proof. intros Ht Hp. replace (Z.of_nat t * Z.of_nat np + Z.of_nat p)%Z with (Z.of_nat (t * np + p)) by lia. apply sm_at_ok. nia. Qed.
Lemma at_plane' t p : t < NT -> p < np -> sm_at s (Z.of_nat t * Z.of_nat np + Z.of_nat p + Z.of_nat np) = Ok (plane s (S t) p).
Proof. intros Ht Hp. rewrite <- (at_plane (S t) p) by lia. f_equal. lia. Qed.

(** The window of a measured bin. *)
Lemma map_seq_off (f : nat -> nat * R) k0 col n : length col = n -> (forall i, i < n -> f i = (k0 + i, nth i col 0%R)) -> map f (seq 0 n) = combine (seq k0 n) col.
Proof.
  revert f k0 col. induction n as [|n IH]; intros f k0 col HL Hf; simpl; auto. destruct col as [|c col]; [discriminate|].
  rewrite (Hf 0) by lia. cbn [nth]. rewrite Nat.add_0_r. f_equal. rewrite <- seq_shift, map_map. rewrite (IH (fun i => f (S i)) (S k0) col).
  - reflexivity.
  - simpl in HL. lia.
  - intros i Hi. rewrite Hf by lia. simpl. f_equal. lia.
Qed.
Lemma slice_ok (l : list R) a n : a + n <= length l -> slice l (Z.of_nat a) (Z.of_nat (a + n)) = Ok (firstn n (skipn a l)).
Proof.
  intros H. unfold slice. destruct (Z.leb_spec 0 (Z.of_nat a)); [|lia]. destruct (Z.leb_spec (Z.of_nat a) (Z.of_nat (a + n))); [|lia].
  destruct (Z.leb_spec (Z.of_nat (a + n)) (Z.of_nat (length l))); [|lia]. simpl. f_equal. rewrite Nat2Z.id. f_equal. lia.
Qed.
Lemma nth_slice (l : list R) a n i : i < n -> nth i (firstn n (skipn a l)) 0%R = nth (a + i) l 0%R.
Proof.
  revert a n i. assert (forall n i (l : list R), i < n -> nth i (firstn n l) 0%R = nth i l 0%R) as H1.
  { induction n; intros i l' Hi; [lia|]. destruct l'; [destruct i; auto|]. destruct i; simpl; auto. apply IHn. lia. }
  intros a n i Hi. rewrite H1 by auto. clear. revert a. induction l as [|x l IH]; intros a.
  - rewrite skipn_nil. destruct i, a; reflexivity.
  - destruct a; [reflexivity|]. simpl. apply IH.
Qed.
Definition k0_of (k : nat) : nat :=
  if (0 <? sm_ev s)%Z then k + eb - Z.to_nat (sm_ev s) else match response s k with (t, _) :: _ => t | [] => 0 end.
Lemma ec_ok k : k < nb -> exists col,
  get_edisp_constants s k = Ok (Z.of_nat (k0_of k), Z.of_nat (k0_of k + length col), col) /\
  response s k = combine (seq (k0_of k) (length col)) col /\ k0_of k + length col <= NT /\
  length col = (if (0 <? sm_ev s)%Z then 2 * Z.to_nat (sm_ev s) + 1 else 1).
Proof.
  intros Hk. unfold get_edisp_constants, get_edisp_range, k0_of, response.
  destruct (Z.eqb_spec (sm_ev s) 0) as [E0|E0].
  - rewrite E0. simpl. exists [1%R]. simpl. split; [|split; [reflexivity|split; [lia|reflexivity]]]. f_equal. f_equal. f_equal; lia.
  - destruct (Z.ltb_spec (sm_ev s) 0) as [En|En].
    + destruct (Z.ltb_spec 0 (sm_ev s)); [lia|]. destruct (so_old s OK En) as [HL HF].
      rewrite (vec_get_ok _ _ (1%R, (-1)%Z)) by lia. cbn [obind].
      assert (snd (nth k (sm_corr s) (1%R, (-1)%Z)) < Z.of_nat nb)%Z as Hb by (rewrite Forall_forall in HF; apply HF; apply nth_In; lia).
      destruct (nth k (sm_corr s) (1%R, (-1)%Z)) as [xi kref]. cbn [fst snd] in *. exists [xi].
      destruct (Z.leb_spec 0 kref); simpl length; (split; [|split; [reflexivity|split; [lia|reflexivity]]]); f_equal; f_equal; f_equal; lia.
    + destruct (Z.ltb_spec 0 (sm_ev s)); [|lia]. destruct (so_new s OK) as (H1 & H2 & H3 & H4); [lia|].
      unfold vec_at. rewrite (nth_error_nth' (sm_drm s) []) by lia. cbn [obind].
      assert (length (nth k (sm_drm s) []) = nb + 2 * sm_deb s) as HL by (rewrite Forall_forall in H4; apply H4; apply nth_In; lia).
      set (e := Z.to_nat (sm_ev s)). 
      replace (Z.of_nat k + (Z.of_nat eb - sm_ev s) - (Z.of_nat eb - Z.of_nat (sm_deb s)))%Z with (Z.of_nat (k + sm_deb s - e)) by lia.
      replace (Z.of_nat k + 1 + (Z.of_nat eb + sm_ev s) - (Z.of_nat eb - Z.of_nat (sm_deb s)))%Z with (Z.of_nat (k + sm_deb s - e + (2 * e + 1))) by lia.
      rewrite slice_ok by lia. cbn [obind]. eexists. split; [|split; [|split]].
      * f_equal. f_equal. f_equal; [lia|]. rewrite firstn_length, skipn_length. lia.
      * rewrite firstn_length, skipn_length, HL. replace (Nat.min (2 * e + 1) (nb + 2 * sm_deb s - (k + sm_deb s - e))) with (2 * e + 1) by lia.
        apply map_seq_off; [rewrite firstn_length, skipn_length; lia|]. intros i Hi. rewrite nth_slice by auto. reflexivity.
      * rewrite firstn_length, skipn_length. lia.
      * rewrite firstn_length, skipn_length. lia.
Qed.
Lemma krange_nat k0 n : krange (Z.of_nat k0) (Z.of_nat (k0 + n)) = map (fun i => (i, Z.of_nat (k0 + i))) (seq 0 n).
Proof.
  unfold krange. replace (Z.to_nat (Z.of_nat (k0 + n) - Z.of_nat k0)) with n by lia. apply map_ext. intros i. f_equal. lia.
Qed.

Definition bc (spec : list R) (t p : nat) : R := let w := nth t (wts_of spec (sm_en s) (sm_ler s)) (0%R, 0%R) in (plane s t p * fst w + plane s (S t) p * snd w)%R.
Lemma bc_bin spec t p : t < NT -> bc spec t p = bin_counts s spec t p.
Proof. intros H. unfold bc. rewrite wts_nth by (rewrite (so_ler s OK); auto). unfold bin_counts. simpl. field. Qed.
Lemma wsum_seq (f : nat -> R) : forall col k0, Rsum (map (fun tr => (snd tr * f (fst tr))%R) (combine (seq k0 (length col)) col)) = 
  Rsum (map (fun i => (nth i col 0 * f (k0 + i)%nat)%R) (seq 0 (length col))).
Proof.
  induction col as [|c col IH]; intros k0; auto. cbn [length seq combine map nth]. unfold Rsum at 1 2. cbn [fold_right]. fold Rsum. f_equal.
  - cbn [fst snd]. now rewrite Nat.add_0_r.
  - fold (Rsum (map (fun tr => (snd tr * f (fst tr))%R) (combine (seq (S k0) (length col)) col))). rewrite IH. rewrite <- seq_shift, map_map.
    unfold Rsum. f_equal. apply map_ext. intros i. cbn [nth]. now rewrite Nat.add_succ_comm.
Qed.
Lemma counts_ok spec k p : length spec = NT + 1 -> k < nb -> p < np ->
  forall ec, get_edisp_constants s k = Ok ec -> counts_in_pixel s (wts_of spec (sm_en s) (sm_ler s)) np ec p = Ok (counts_at s spec k p).
Proof.
  intros HS Hk Hp ec E. destruct (ec_ok k Hk) as (col & E' & Hr & Hb & Hl). rewrite E in E'. injection E' as ->.
  set (k0 := k0_of k) in *. unfold counts_in_pixel, counts_at. rewrite Hr, (wsum_seq (fun t => bin_counts s spec t p)). destruct (Z.ltb_spec 0 (sm_ev s)) as [Hev|Hev].
  - unfold model_counts_edisp. rewrite krange_nat.
    assert (forall n a x, a + n <= length col ->
      mfold (fun ret ik => let (idx, k) := (ik : nat * Z) in
        let jmin := (k * Z.of_nat np + Z.of_nat p)%Z in
        a <- sm_at s jmin ;; w <- getZ (wts_of spec (sm_en s) (sm_ler s)) k ;; b <- sm_at s (jmin + Z.of_nat np) ;; c <- vec_get col idx ;;
        Ok (ret + c * (a * fst w + b * snd w))%R) (map (fun i => (i, Z.of_nat (k0 + i))) (seq a n)) x =
      Ok (x + Rsum (map (fun i => (nth i col 0 * bin_counts s spec (k0 + i) p)%R) (seq a n)))%R) as H.
    { induction n as [|n IH]; intros a x Ha; simpl; [unfold Rsum; simpl; now rewrite Rplus_0_r|].
      rewrite at_plane by lia. cbn [obind]. rewrite (getZ_ok _ _ (0%R, 0%R)) by (rewrite wts_len, (so_ler s OK); lia). cbn [obind].
      rewrite at_plane' by lia. cbn [obind]. rewrite (vec_get_ok _ _ 0%R) by lia. cbn [obind].
      change (plane s (k0 + a) p * fst (nth (k0 + a) (wts_of spec (sm_en s) (sm_ler s)) (0%R, 0%R)) + plane s (S (k0 + a)) p * snd (nth (k0 + a) (wts_of spec (sm_en s) (sm_ler s)) (0%R, 0%R)))%R
        with (bc spec (k0 + a) p). rewrite bc_bin by lia. rewrite IH by lia. f_equal. unfold Rsum. simpl. ring. }
    rewrite H by lia. f_equal. ring.
  - destruct col as [|xi [|]]; try (simpl in Hl; discriminate). simpl length in *. cbn [vec_get nth_error obind].
    unfold model_counts_contribution. rewrite at_plane by lia. cbn [obind]. rewrite (getZ_ok _ _ (0%R, 0%R)) by (rewrite wts_len, (so_ler s OK); lia). cbn [obind].
    rewrite at_plane' by lia. cbn [obind]. f_equal.
    change (plane s k0 p * fst (nth k0 (wts_of spec (sm_en s) (sm_ler s)) (0%R, 0%R)) + plane s (S k0) p * snd (nth k0 (wts_of spec (sm_en s) (sm_ler s)) (0%R, 0%R)))%R with (bc spec k0 p).
    rewrite bc_bin by lia. unfold Rsum. simpl. rewrite Nat.add_0_r. ring.
Qed.
Lemma wts_ok spec : length spec = NT + 1 -> get_spectral_weights spec (sm_en s) (sm_ler s) = Ok (wts_of spec (sm_en s) (sm_ler s)).
Proof. intros H. apply gsw_ok; rewrite ?(so_ler s OK), ?(so_en s OK); lia. Qed.

(** addSourceCounts. *)
Variables (dc : dcache) (DC : dc_ok s dc).
Notation fi := (dc_first dc). Notation fl := (dc_filled dc).
Lemma first_mono : forall a b, a <= b <= nb -> nth a fi 0 <= nth b fi 0.
Proof.
  destruct DC as (H1 & H2 & H3 & H4 & H5). intros a b H. replace b with (a + (b - a)) by lia. assert (a + (b - a) <= nb) as Hb by lia. revert Hb. generalize (b - a). clear H b.
  induction n as [|n IH]; intros Hb; [rewrite Nat.add_0_r; lia|]. rewrite Nat.add_succ_r in *. specialize (H4 (a + n)). lia.
Qed.
Lemma first_le k : k <= nb -> nth k fi 0 <= length fl.
Proof. intros H. destruct DC as (H1 & H2 & H3 & H4 & H5). rewrite <- H3. apply first_mono. lia. Qed.
Lemma pixels_ok (sign : R) (g : nat -> R) (body : nat -> outcome R) : (forall p, p < np -> body p = Ok (g p)) ->
  forall n a buf, a + n <= length fl -> length buf = length fl ->
  exists buf', mfold (fun buf j => ipix <- vec_get fl j ;; counts <- body ipix ;; x <- vec_get buf j ;; vec_set buf j (x + sign * counts)%R) (seq a n) buf = Ok buf' /\
    length buf' = length fl /\ forall j, nth j buf' 0%R = (if (a <=? j) && (j <? a + n) then nth j buf 0 + sign * g (nth j fl 0%nat) else nth j buf 0)%R.
Proof.
  intros Hb. induction n as [|n IH]; intros a buf Ha HL; simpl.
  - exists buf. split; auto. split; auto. intros j. destruct (Nat.leb_spec a j), (Nat.ltb_spec j (a + 0)); simpl; auto; lia.
  - destruct DC as (_ & _ & _ & _ & HF). rewrite Forall_forall in HF.
    rewrite (vec_get_ok fl a 0) by lia. cbn [obind]. rewrite Hb by (apply HF, nth_In; lia). cbn [obind].
    rewrite (vec_get_ok buf a 0%R) by lia. cbn [obind]. rewrite vec_set_ok by lia. cbn [obind].
    destruct (IH (S a) (upd buf a (nth a buf 0 + sign * g (nth a fl 0%nat))%R)) as (buf' & E & HL' & Hj); [lia|now rewrite upd_length|].
    exists buf'. split; auto. split; auto. intros j. rewrite Hj.
    destruct (Nat.eq_dec a j) as [<-|Hne].
    + rewrite nth_upd_eq by lia. destruct (Nat.leb_spec (S a) a); [lia|]. destruct (Nat.leb_spec a a); [|lia]. destruct (Nat.ltb_spec a (a + S n)); [|lia]. reflexivity.
    + rewrite nth_upd_neq by auto. destruct (Nat.leb_spec (S a) j), (Nat.leb_spec a j), (Nat.ltb_spec j (S a + n)), (Nat.ltb_spec j (a + S n)); simpl; auto; lia.
Qed.
Lemma planes_ok (sign : R) spec : length spec = NT + 1 -> forall n k buf, k + n = nb -> length buf = length fl ->
  exists buf', mfold (fun buf k =>
    ec <- get_edisp_constants s k ;;
    j_start <- vec_get (dc_first dc) k ;; j_stop <- vec_get (dc_first dc) (S k) ;;
    mfold (fun buf j =>
      ipix <- vec_get (dc_filled dc) j ;;
      counts <- counts_in_pixel s (wts_of spec (sm_en s) (sm_ler s)) (sm_np s) ec ipix ;;
      x <- vec_get buf j ;;
      vec_set buf j (x + sign * counts)%R) (seq j_start (j_stop - j_start)) buf) (seq k n) buf = Ok buf' /\
  length buf' = length fl /\
  (forall j, j < nth k fi 0 -> nth j buf' 0%R = nth j buf 0%R) /\
  (forall k' j, k <= k' < nb -> in_plane dc k' j -> nth j buf' 0%R = (nth j buf 0 + sign * counts_at s spec k' (nth j fl 0%nat))%R).
Proof.
  intros HS. pose proof DC as (F1 & F2 & F3 & F4 & F5). induction n as [|n IH]; intros k buf Hk HL; cbn [seq mfold].
  - exists buf. split; auto. split; auto. split; auto. intros k' j Hk'. lia.
  - destruct (ec_ok k) as (col & E & _); [lia|]. rewrite E. cbn [obind]. rewrite !(vec_get_ok fi _ 0) by lia. cbn [obind].
    pose proof (F4 k ltac:(lia)) as Hm. pose proof (first_le (S k) ltac:(lia)) as Hle.
    destruct (pixels_ok sign (counts_at s spec k) (fun ipix => counts_in_pixel s (wts_of spec (sm_en s) (sm_ler s)) np (Z.of_nat (k0_of k), Z.of_nat (k0_of k + length col), col) ipix)) with
      (n := nth (S k) fi 0 - nth k fi 0) (a := nth k fi 0) (buf := buf) as (b1 & E1 & L1 & H1); [|lia|auto|].
    { intros p Hp. apply counts_ok; auto; lia. }
    rewrite E1. cbn [obind]. destruct (IH (S k) b1) as (b2 & E2 & L2 & Hlo & Hhi); [lia|auto|]. exists b2. split; auto. split; auto. split.
    + intros j Hj. rewrite Hlo by lia. rewrite H1. destruct (Nat.leb_spec (nth k fi 0) j); [lia|]. reflexivity.
    + intros k' j Hk' Hj. destruct (Nat.eq_dec k' k) as [->|Hne].
      * destruct Hj as [Ha Hb]. rewrite Hlo by lia. rewrite H1. destruct (Nat.leb_spec (nth k fi 0) j); [|lia]. destruct (Nat.ltb_spec j (nth k fi 0 + (nth (S k) fi 0 - nth k fi 0))); [|lia]. reflexivity.
      * rewrite (Hhi k' j) by (auto; lia). destruct Hj as [Ha Hb]. pose proof (first_mono (S k) k' ltac:(lia)). rewrite H1.
        destruct (Nat.ltb_spec j (nth k fi 0 + (nth (S k) fi 0 - nth k fi 0))); [lia|]. now rewrite andb_false_r.
Qed.
Lemma addSourceCounts_ok buf subtract : length buf = length fl ->
  exists buf', addSourceCounts buf s dc subtract = Ok buf' /\ length buf' = length fl /\
  forall k j, k < nb -> in_plane dc k j -> nth j buf' 0%R = (nth j buf 0 + (if subtract then -1 else 1) * counts_at s (sm_spec s) k (nth j fl 0%nat))%R.
Proof.
  intros HL. unfold addSourceCounts. assert (length (sm_spec s) = NT + 1) as HS by (rewrite (so_spec s OK), (so_en s OK); lia).
  rewrite wts_ok by auto. cbn [obind]. destruct (planes_ok (if subtract then (-1)%R else 1%R) (sm_spec s) HS nb 0 buf eq_refl HL) as (b & E & L & _ & H).
  exists b. split; auto. split; auto. intros k j Hk Hj. apply H; auto. lia.
Qed.
Lemma every_entry j : j < length fl -> exists k, k < nb /\ in_plane dc k j.
Proof.
  destruct DC as (F1 & F2 & F3 & F4 & F5). intros Hj. rewrite <- F3 in Hj.
  assert (forall n, n <= nb -> j < nth n fi 0 -> exists k, k < n /\ in_plane dc k j) as H.
  { induction n as [|n IH]; intros Hn Hlt; [lia|]. destruct (Nat.lt_ge_cases j (nth n fi 0)) as [H|H].
    - destruct (IH ltac:(lia) H) as (k & Hk & Hi). exists k. split; auto.
    - exists n. split; auto. split; auto. }
  destruct (H nb (le_n _) Hj) as (k & Hk & Hi). exists k; auto.
Qed.
End S.

From Coq Require Import Reals Lra Sorted.
From Verif Require Import Base AccumModel AccumProofs SparseModel SparseProofs SmapModel SmapSpec CountsProofs SmapProofs.
Local Open Scope outcome_scope.

Lemma Rsum_seq_S (f : nat -> R) a n : Rsum (map f (seq a (S n))) = (f a + Rsum (map f (seq (S a) n)))%R.
Proof. reflexivity. Qed.
Lemma Rsum_snoc (f : nat -> R) n : Rsum (map f (seq 0 (S n))) = (Rsum (map f (seq 0 n)) + f n)%R.
Proof. rewrite seq_S, map_app, Rsum_app. unfold Rsum at 2. simpl. ring. Qed.
Lemma Rsum_scal c (f : nat -> R) l : Rsum (map (fun x => c * f x)%R l) = (c * Rsum (map f l))%R.
Proof. unfold Rsum. induction l; simpl; [ring|rewrite IHl; ring]. Qed.
Lemma Rsum_plus {A} (f g : A -> R) l : Rsum (map (fun x => f x + g x)%R l) = (Rsum (map f l) + Rsum (map g l))%R.
Proof. unfold Rsum. induction l; simpl; [ring|rewrite IHl; ring]. Qed.
Lemma Rsum_ext {A} (f g : A -> R) l : (forall x, In x l -> f x = g x) -> Rsum (map f l) = Rsum (map g l).
Proof. intros H. f_equal. apply map_ext_in; auto. Qed.
Lemma Rsum_zero {A} (l : list A) : Rsum (map (fun _ => 0%R) l) = 0%R.
Proof. unfold Rsum. induction l; simpl; [auto|rewrite IHl; ring]. Qed.
Lemma Rsum_swap {A B} (f : A -> B -> R) (l : list A) (m : list B) :
  Rsum (map (fun a => Rsum (map (fun b => f a b) m)) l) = Rsum (map (fun b => Rsum (map (fun a => f a b) l)) m).
Proof.
  induction l as [|a l IH]; simpl; [symmetry; apply Rsum_zero|].
  change (Rsum (Rsum (map (fun b => f a b) m) :: map (fun a0 => Rsum (map (fun b => f a0 b) m)) l)) with
    (Rsum (map (fun b => f a b) m) + Rsum (map (fun a0 => Rsum (map (fun b => f a0 b) m)) l))%R. rewrite IH.
  rewrite <- Rsum_plus. apply Rsum_ext. reflexivity.
Qed.

Section S.
Variables (s : smap) (OK : sm_ok s).
Notation np := (sm_np s). Notation nb := (sm_nb s). Notation eb := (sm_eb s). Notation NT := (sm_nb s + 2 * sm_eb s).

Lemma mask_ok w j d : sm_w s = Some w -> j < nb * np -> vec_get w j = Ok (nth j w d).
Proof. intros E H. apply vec_get_ok. rewrite (so_w s OK w E). auto. Qed.

(** updateModelMap. *)
Definition masked_out (use_mask : bool) (k p : nat) : bool := use_mask && Rleb (weight s k p) 0.
Lemma mask_eval (use_mask : bool) k p : k < nb -> p < np ->
  (if use_mask then match sm_w s with None => Ok false | Some w => x <- vec_get w (k * np + p) ;; Ok (Rleb x 0) end else Ok false) = Ok (masked_out use_mask k p).
Proof.
  intros Hk Hp. unfold masked_out, weight. destruct use_mask; auto. destruct (sm_w s) as [w|] eqn:E; simpl.
  - rewrite (mask_ok w _ 0%R) by (auto; nia). reflexivity.
  - destruct (Rleb_spec 1 0); auto. lra.
Qed.
Lemma map_pixels (use_mask : bool) spec k ec : length spec = NT + 1 -> k < nb -> get_edisp_constants s k = Ok ec -> forall n a m, a + n = np -> length m = nb * np ->
  exists m', mfold (fun map ipix =>
      let j := k * sm_np s + ipix in
      masked <- (if use_mask then match sm_w s with None => Ok false | Some w => x <- vec_get w j ;; Ok (Rleb x 0) end else Ok false) ;;
      if masked : bool then Ok map else
      counts <- counts_in_pixel s (wts_of spec (sm_en s) (sm_ler s)) (sm_np s) ec ipix ;;
      x <- vec_get map j ;;
      vec_set map j (x + counts)%R) (seq a n) m = Ok m' /\ length m' = nb * np /\
   (forall i, ~ (k * np + a <= i < k * np + np) -> nth i m' 0%R = nth i m 0%R) /\
   (forall p, a <= p < np -> nth (k * np + p) m' 0%R = (nth (k * np + p) m 0 + if masked_out use_mask k p then 0 else counts_at s spec k p)%R).
Proof.
  intros HS Hk E. induction n as [|n IH]; intros a m Ha HL; cbn [seq mfold].
  - exists m. split; auto. split; auto. split; auto. intros p Hp. lia.
  - cbv zeta. rewrite mask_eval by lia. cbn [obind]. destruct (masked_out use_mask k a) eqn:Em.
    + destruct (IH (S a) m ltac:(lia) HL) as (m' & E' & L' & H1 & H2). exists m'. cbn [obind]. split; auto. split; auto. split.
      * intros i Hi. apply H1. lia.
      * intros p Hp. destruct (Nat.eq_dec p a) as [->|Hne]; [rewrite H1 by lia; rewrite Em; ring|apply H2; lia].
    + rewrite (counts_ok s OK spec k a HS Hk ltac:(lia) ec E). cbn [obind]. assert (k * np + a < length m) as Hlt by nia.
      rewrite (vec_get_ok m _ 0%R) by auto. cbn [obind]. rewrite vec_set_ok by auto. cbn [obind].
      destruct (IH (S a) (upd m (k * np + a) (nth (k * np + a) m 0 + counts_at s spec k a)%R) ltac:(lia)) as (m' & E' & L' & H1 & H2); [now rewrite upd_length|].
      exists m'. split; auto. split; auto. split.
      * intros i Hi. rewrite H1 by lia. apply nth_upd_neq. lia.
      * intros p Hp. destruct (Nat.eq_dec p a) as [->|Hne]; [rewrite H1 by lia; rewrite Em, nth_upd_eq by auto; ring|].
        rewrite H2 by lia. rewrite nth_upd_neq by lia. reflexivity.
Qed.
Lemma updateModelMap_ok m (use_mask : bool) : length m = nb * np ->
  exists m', updateModelMap m s use_mask = Ok m' /\ length m' = nb * np /\
  forall k p, k < nb -> p < np -> nth (k * np + p) m' 0%R = (nth (k * np + p) m 0 + if masked_out use_mask k p then 0 else counts_at s (sm_spec s) k p)%R.
Proof.
  intros HL. unfold updateModelMap. assert (length (sm_spec s) = NT + 1) as HS by (rewrite (so_spec s OK), (so_en s OK); lia).
  rewrite (wts_ok s OK) by auto. cbn [obind].
  assert (forall n k0 m, k0 + n = nb -> length m = nb * np -> exists m', mfold (fun map k =>
    ec <- get_edisp_constants s k ;;
    mfold (fun map ipix =>
      let j := k * sm_np s + ipix in
      masked <- (if use_mask then match sm_w s with None => Ok false | Some w => x <- vec_get w j ;; Ok (Rleb x 0) end else Ok false) ;;
      if masked : bool then Ok map else
      counts <- counts_in_pixel s (wts_of (sm_spec s) (sm_en s) (sm_ler s)) (sm_np s) ec ipix ;;
      x <- vec_get map j ;;
      vec_set map j (x + counts)%R) (seq 0 (sm_np s)) map) (seq k0 n) m = Ok m' /\ length m' = nb * np /\
     (forall i, i < k0 * np -> nth i m' 0%R = nth i m 0%R) /\
     forall k p, k0 <= k < nb -> p < np -> nth (k * np + p) m' 0%R = (nth (k * np + p) m 0 + if masked_out use_mask k p then 0 else counts_at s (sm_spec s) k p)%R) as H.
  { induction n as [|n IH]; intros k0 m0 Hk HL0; cbn [seq mfold].
    - exists m0. split; auto. split; auto. split; auto. intros; lia.
    - destruct (ec_ok s OK k0) as (col & E & _); [lia|]. rewrite E. cbn [obind].
      destruct (map_pixels use_mask (sm_spec s) k0 _ HS ltac:(lia) E np 0 m0 eq_refl HL0) as (m1 & E1 & L1 & A1 & B1). cbn [obind] in E1 |- *. rewrite E1. cbn [obind].
      destruct (IH (S k0) m1 ltac:(lia) L1) as (m2 & E2 & L2 & A2 & B2). exists m2. split; auto. split; auto. split.
      + intros i Hi. rewrite A2 by nia. apply A1. nia.
      + intros k p Hk' Hp. destruct (Nat.eq_dec k k0) as [->|Hne].
        * rewrite A2 by nia. apply B1. lia.
        * rewrite B2 by lia. rewrite A1; [reflexivity|]. nia. }
  destruct (H nb 0 m eq_refl HL) as (m' & E & L & _ & B). exists m'. split; auto. split; auto. intros. apply B; auto. lia.
Qed.

(** The npred arrays. *)
Definition width : nat := if (0 <? sm_ev s)%Z then 2 * Z.to_nat (sm_ev s) + 1 else 1.
Definition row0 (k : nat) : nat := if (0 <? sm_ev s)%Z then k + eb - Z.to_nat (sm_ev s) else k + eb.
Definition npred_spec (t : nat) : R := over_pixels s (plane s t).
Definition wsum (k t : nat) (L : list nat) : R := Rsum (map (fun p => weight s k p * plane s t p)%R L).
Definition row_spec (k : nat) (L : list nat) : list (R * R) := map (fun i => (wsum k (row0 k + i) L, wsum k (S (row0 k + i)) L)) (seq 0 width).
Lemma row0_bound k : k < nb -> row0 k + width <= NT.
Proof. intros H. unfold row0, width. destruct (Z.ltb_spec 0 (sm_ev s)); [|lia]. destruct (so_new s OK) as (H1 & _); auto. lia. Qed.
Lemma range_ok k : k < nb -> npred_range s k = (Z.of_nat (row0 k), Z.of_nat (row0 k + width)).
Proof.
  intros Hk. unfold npred_range, get_edisp_range, row0, width. destruct (Z.ltb_spec 0 (sm_ev s)).
  - destruct (so_new s OK) as (H1 & _); auto. destruct (Z.leb_spec (sm_ev s) 0); [lia|]. f_equal; lia.
  - destruct (Z.leb_spec (sm_ev s) 0); [|lia]. f_equal; lia.
Qed.
Lemma weight_ok k p : k < nb -> p < np -> weight_at s (k * np + p) = Ok (weight s k p).
Proof. intros Hk Hp. unfold weight_at, weight. destruct (sm_w s) as [w|] eqn:E; auto. apply mask_ok; auto. nia. Qed.

Section Full.
Variables (m : list R) (HM : sm_img s = Full m).
Lemma m_ok t p : t <= NT -> p < np -> vec_get m (t * np + p) = Ok (plane s t p).
Proof.
  intros Ht Hp. unfold plane, pix. rewrite HM. apply vec_get_ok. pose proof (so_img s OK) as Hi. rewrite HM, (so_en s OK) in Hi. nia.
Qed.
Lemma mz_ok t p : t <= NT -> p < np -> getZ m (Z.of_nat t * Z.of_nat np + Z.of_nat p) = Ok (plane s t p).
Proof.
  intros Ht Hp. replace (Z.of_nat t * Z.of_nat np + Z.of_nat p)%Z with (Z.of_nat (t * np + p)) by lia. unfold getZ.
  destruct (Z.ltb_spec (Z.of_nat (t * np + p)) 0); [lia|]. rewrite Nat2Z.id. apply m_ok; auto.
Qed.
Definition cellbody (kmeas j : nat) (w : R) := (fun (wn : list (list (R * R))) ik =>
              let (i, kk) := (ik : nat * Z) in
              row <- vec_at wn kmeas ;; ab <- vec_at row i ;;
              m0 <- getZ m (kk * Z.of_nat np + Z.of_nat j) ;; m1 <- getZ m (kk * Z.of_nat np + Z.of_nat j + Z.of_nat np) ;;
              row' <- vec_set row i ((fst ab + w * m0)%R, (snd ab + w * m1)%R) ;;
              vec_set wn kmeas row').
Lemma cells_ok k j w : k < nb -> j < np -> forall n a wn row, length wn = nb -> nth k wn [] = row -> length row = width -> a + n = width ->
  exists row', mfold (cellbody k j w) (map (fun i => (i, Z.of_nat (row0 k + i))) (seq a n)) wn = Ok (upd wn k row') /\ length row' = width /\
   forall i, nth i row' (0%R, 0%R) = if (a <=? i) && (i <? width) then ((fst (nth i row (0%R, 0%R)) + w * plane s (row0 k + i) j)%R, (snd (nth i row (0%R, 0%R)) + w * plane s (S (row0 k + i)) j)%R) else nth i row (0%R, 0%R).
Proof.
  intros Hk Hj. pose proof (row0_bound k Hk) as Hb. induction n as [|n IH]; intros a wn row HL Hr HW Ha.
  - exists row. simpl. split; [rewrite <- Hr, upd_same by lia; auto|]. split; auto. intros i. destruct (Nat.leb_spec a i), (Nat.ltb_spec i width); simpl; auto; lia.
  - cbn [seq map mfold]. unfold cellbody at 1. unfold vec_at. rewrite (nth_error_nth' wn []) by lia. cbn [obind]. rewrite Hr.
    rewrite (nth_error_nth' row (0%R, 0%R)) by lia. cbn [obind]. rewrite mz_ok by lia. cbn [obind].
    replace (Z.of_nat (row0 k + a) * Z.of_nat np + Z.of_nat j + Z.of_nat np)%Z with (Z.of_nat (S (row0 k + a)) * Z.of_nat np + Z.of_nat j)%Z by lia.
    rewrite mz_ok by lia. cbn [obind]. rewrite vec_set_ok by lia. cbn [obind]. rewrite vec_set_ok by lia. cbn [obind].
    set (row1 := upd row a _). destruct (IH (S a) (upd wn k row1) row1) as (row' & E & L & H).
    + now rewrite upd_length.
    + now rewrite nth_upd_eq by lia.
    + unfold row1. now rewrite upd_length.
    + lia.
    + exists row'. rewrite E, upd_upd. split; auto. split; auto. intros i. rewrite H. unfold row1.
      destruct (Nat.eq_dec i a) as [->|Hne].
      * destruct (Nat.leb_spec (S a) a); [lia|]. destruct (Nat.leb_spec a a); [|lia]. destruct (Nat.ltb_spec a width); [|lia]. simpl. now rewrite nth_upd_eq by lia.
      * rewrite nth_upd_neq by auto. destruct (Nat.leb_spec (S a) i), (Nat.leb_spec a i), (Nat.ltb_spec i width); simpl; auto; lia.
Qed.
Definition pixbody (k : nat) (meas : bool) (kmeas : nat) (kmin kmax : Z) := (fun (st : list R * list (list (R * R))) j =>
      let (npreds, wn) := st in
      x <- vec_get m (k * np + j) ;;
      n <- vec_get npreds k ;;
      npreds <- vec_set npreds k (n + x)%R ;;
      if negb meas then Ok (npreds, wn) else
      w <- weight_at s (kmeas * np + j) ;;
      wn <- mfold (cellbody kmeas j w) (krange kmin kmax) wn ;;
      Ok (npreds, wn)).
Lemma pix_nonmeas k kmeas kmin kmax : k <= NT -> forall n a npreds wn, a + n = np -> length npreds = NT + 1 ->
  mfold (pixbody k false kmeas kmin kmax) (seq a n) (npreds, wn) = Ok (upd npreds k (nth k npreds 0 + Rsum (map (plane s k) (seq a n)))%R, wn).
Proof.
  intros Hk. induction n as [|n IH]; intros a npreds wn Ha HL.
  - simpl. unfold Rsum. simpl. rewrite Rplus_0_r, upd_same by lia. reflexivity.
  - cbn [seq mfold]. unfold pixbody at 1. rewrite m_ok by lia. cbn [obind]. rewrite (vec_get_ok npreds k 0%R) by lia. cbn [obind]. rewrite vec_set_ok by lia. cbn [obind negb].
    rewrite IH; [|lia|now rewrite upd_length]. rewrite nth_upd_eq by lia. rewrite upd_upd. f_equal. f_equal. f_equal. cbn [map]. unfold Rsum. cbn [fold_right]. ring.
Qed.
Lemma row_nth k L i : i < width -> nth i (row_spec k L) (0%R, 0%R) = (wsum k (row0 k + i) L, wsum k (S (row0 k + i)) L).
Proof. intros H. unfold row_spec. now rewrite nth_map_seq'. Qed.
Lemma row_len k L : length (row_spec k L) = width.
Proof. unfold row_spec. now rewrite map_length, seq_length. Qed.
Lemma pix_meas k : k < nb -> forall n a npreds wn, a + n = np -> length npreds = NT + 1 -> length wn = nb -> nth k wn [] = row_spec k (seq 0 a) ->
  mfold (pixbody (k + eb) true k (Z.of_nat (row0 k)) (Z.of_nat (row0 k + width))) (seq a n) (npreds, wn) =
  Ok (upd npreds (k + eb) (nth (k + eb) npreds 0 + Rsum (map (plane s (k + eb)) (seq a n)))%R, upd wn k (row_spec k (seq 0 np))).
Proof.
  intros Hk. induction n as [|n IH]; intros a npreds wn Ha HL HW Hr.
  - simpl. unfold Rsum. simpl. rewrite Rplus_0_r, upd_same by lia. replace np with a by lia. rewrite <- Hr, upd_same by lia. reflexivity.
  - cbn [seq mfold]. unfold pixbody at 1. rewrite m_ok by lia. cbn [obind]. rewrite (vec_get_ok npreds _ 0%R) by lia. cbn [obind]. rewrite vec_set_ok by lia. cbn [obind negb].
    rewrite weight_ok by lia. cbn [obind]. rewrite krange_nat.
    destruct (cells_ok k a (weight s k a) Hk ltac:(lia) width 0 wn _ HW Hr (row_len _ _) eq_refl) as (row' & E & L & Hi). rewrite E. cbn [obind].
    assert (row' = row_spec k (seq 0 (S a))) as Er.
    { apply list_ext_nth with (d := (0%R, 0%R)); [now rewrite row_len|]. intros i Hlt. rewrite L in Hlt. rewrite Hi, !row_nth by auto. destruct (Nat.ltb_spec i width); [|lia]. cbn [andb Nat.leb fst snd].
      unfold wsum. rewrite !Rsum_snoc. reflexivity. }
    rewrite IH; [|lia|now rewrite upd_length|now rewrite upd_length|rewrite nth_upd_eq by lia; exact Er].
    rewrite nth_upd_eq by lia. rewrite !upd_upd. f_equal. f_equal. f_equal. cbn [map]. unfold Rsum. cbn [fold_right]. ring.
Qed.
Lemma vec_resize_nil0 n : vec_resize (@nil (R * R)) n (0%R, 0%R) = repeat (0%R, 0%R) n.
Proof. unfold vec_resize. rewrite firstn_nil, Nat.sub_0_r. reflexivity. Qed.
Lemma row_zero k : repeat (0%R, 0%R) width = row_spec k (seq 0 0).
Proof.
  apply list_ext_nth with (d := (0%R, 0%R)); [now rewrite repeat_length, row_len|]. intros i Hi. rewrite repeat_length in Hi. rewrite row_nth by auto. rewrite nth_repeat. reflexivity.
Qed.
Lemma full_loop : forall n k npreds wn, k + n = NT + 1 -> length npreds = NT + 1 -> length wn = nb ->
  (forall t, nth t npreds 0%R = if t <? k then npred_spec t else 0%R) ->
  (forall q, q < nb -> nth q wn [] = if q + eb <? k then row_spec q (seq 0 np) else []) ->
  exists npreds' wn', mfold (fun (st : list R * list (list (R * R))) k =>
    let (npreds, wn) := st in
    let meas := (sm_eb s <=? k) && (k <? sm_eb s + sm_nb s) in
    let kmeas := k - sm_eb s in
    let (kmin, kmax) := npred_range s kmeas in
    wn <- (if meas then row <- vec_get wn kmeas ;; vec_set wn kmeas (vec_resize row (Z.to_nat (kmax - kmin)) (0%R, 0%R)) else Ok wn) ;;
    mfold (pixbody k meas kmeas kmin kmax) (seq 0 np) (npreds, wn)) (seq k n) (npreds, wn) = Ok (npreds', wn') /\
   length npreds' = NT + 1 /\ length wn' = nb /\ (forall t, t <= NT -> nth t npreds' 0%R = npred_spec t) /\ (forall q, q < nb -> nth q wn' [] = row_spec q (seq 0 np)).
Proof.
  induction n as [|n IH]; intros k npreds wn Hk HL HW Hn Hr.
  - simpl. exists npreds, wn. split; auto. split; auto. split; auto. split.
    + intros t Ht. rewrite Hn. destruct (Nat.ltb_spec t k); auto; lia.
    + intros q Hq. rewrite Hr by auto. destruct (Nat.ltb_spec (q + eb) k); auto; lia.
  - cbn [seq mfold]. cbv zeta. destruct ((eb <=? k) && (k <? eb + nb)) eqn:Em.
    + apply andb_true_iff in Em as [E1 E2]. apply Nat.leb_le in E1. apply Nat.ltb_lt in E2. remember (k - eb) as q eqn:Eq.
      assert (k = q + eb) as -> by lia. rewrite range_ok by lia.
      rewrite (vec_get_ok wn q []) by lia. cbn [obind]. rewrite Hr by lia. destruct (Nat.ltb_spec (q + eb) (q + eb)); [lia|].
      replace (Z.to_nat (Z.of_nat (row0 q + width) - Z.of_nat (row0 q))) with width by lia. rewrite vec_resize_nil0, (row_zero q).
      rewrite vec_set_ok by lia. cbn [obind]. rewrite pix_meas; [|lia|lia|auto|now rewrite upd_length|now rewrite nth_upd_eq by lia].
      cbn [obind]. rewrite upd_upd. apply (IH (S (q + eb))); [lia|now rewrite upd_length|now rewrite upd_length| |].
      * intros t. destruct (Nat.eq_dec t (q + eb)) as [->|Hne].
        -- rewrite nth_upd_eq by lia. rewrite Hn. destruct (Nat.ltb_spec (q + eb) (q + eb)); [lia|]. destruct (Nat.ltb_spec (q + eb) (S (q + eb))); [|lia]. rewrite Rplus_0_l. reflexivity.
        -- rewrite nth_upd_neq by auto. rewrite Hn. destruct (Nat.ltb_spec t (q + eb)), (Nat.ltb_spec t (S (q + eb))); auto; lia.
      * intros q' Hq'. destruct (Nat.eq_dec q' q) as [->|Hne].
        -- rewrite nth_upd_eq by lia. destruct (Nat.ltb_spec (q + eb) (S (q + eb))); [|lia]. reflexivity.
        -- rewrite nth_upd_neq by auto. rewrite Hr by auto. destruct (Nat.ltb_spec (q' + eb) (q + eb)), (Nat.ltb_spec (q' + eb) (S (q + eb))); auto; lia.
    + destruct (npred_range s (k - eb)) as [kmin kmax]. cbn [obind]. rewrite pix_nonmeas by (auto; lia). cbn [obind].
      apply (IH (S k)); [lia|now rewrite upd_length|auto| |].
      * intros t. destruct (Nat.eq_dec t k) as [->|Hne].
        -- rewrite nth_upd_eq by lia. rewrite Hn. destruct (Nat.ltb_spec k k); [lia|]. destruct (Nat.ltb_spec k (S k)); [|lia]. rewrite Rplus_0_l. reflexivity.
        -- rewrite nth_upd_neq by auto. rewrite Hn. destruct (Nat.ltb_spec t k), (Nat.ltb_spec t (S k)); auto; lia.
      * intros q Hq. rewrite Hr by auto. apply andb_false_iff in Em. assert (q + eb <> k).
        { intros <-. destruct Em as [Em|Em]; [apply Nat.leb_gt in Em; lia|apply Nat.ltb_ge in Em; lia]. }
        destruct (Nat.ltb_spec (q + eb) k), (Nat.ltb_spec (q + eb) (S k)); auto; lia.
Qed.
Lemma full_ok : exists npreds wn, computeNpredArray s m = Ok (npreds, wn) /\
   length npreds = NT + 1 /\ length wn = nb /\ (forall t, t <= NT -> nth t npreds 0%R = npred_spec t) /\ (forall q, q < nb -> nth q wn [] = row_spec q (seq 0 np)).
Proof.
  unfold computeNpredArray, sm_ne. rewrite (so_en s OK).
  apply (full_loop (NT + 1) 0 (repeat 0%R (NT + 1)) (repeat [] nb)); auto.
  - apply repeat_length.
  - apply repeat_length.
  - intros t. destruct (Nat.ltb_spec t 0); [lia|]. apply nth_repeat.
  - intros q Hq. destruct (Nat.ltb_spec (q + eb) 0); [lia|]. apply nth_repeat.
Qed.
End Full.
End S.

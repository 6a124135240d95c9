From Coq Require Import Reals Lra Sorted.
From Verif Require Import Base AccumModel AccumProofs SparseModel SparseProofs SmapModel SmapSpec CountsProofs SmapProofs SmapNpred.
Local Open Scope outcome_scope.

Section S.
Variables (s : smap) (OK : sm_ok s).
Notation np := (sm_np s). Notation nb := (sm_nb s). Notation eb := (sm_eb s). Notation NT := (sm_nb s + 2 * sm_eb s).

(** What holds of the arrays however the map is stored. *)
Definition arrays_ok (npreds : list R) (wn : list (list (R * R))) : Prop :=
  length npreds = NT + 1 /\ length wn = nb /\ (forall t, t <= NT -> nth t npreds 0%R = npred_spec s t) /\
  (forall q, q < nb -> length (nth q wn []) = width s).

Section Sparse.
Variables (v : sv R) (HV : sm_img s = SparseI v).
Lemma edisp_range_width k : k < nb -> exists k1, get_edisp_range s k = (Z.of_nat k1, Z.of_nat (k1 + width s)).
Proof.
  intros Hk. unfold get_edisp_range, width. destruct (Z.ltb_spec 0 (sm_ev s)).
  - destruct (so_new s OK) as (H1 & _); auto. exists (k + eb - Z.to_nat (sm_ev s)). f_equal; lia.
  - exists k. f_equal; lia.
Qed.
Lemma resize_loop : forall n k wn, k + n = NT + 1 -> length wn = nb ->
  (forall q, q < nb -> length (nth q wn []) = if q + eb <? k then width s else 0) ->
  exists wn', mfold (fun wn k =>
          if (sm_eb s <=? k) && (k <? sm_eb s + sm_nb s) then
            let (kmin, kmax) := get_edisp_range s (k - sm_eb s) in
            row <- vec_get wn (k - sm_eb s) ;;
            vec_set wn (k - sm_eb s) (vec_resize row (Z.to_nat (kmax - kmin)) (0%R, 0%R))
          else Ok wn) (seq k n) wn = Ok wn' /\ length wn' = nb /\ forall q, q < nb -> length (nth q wn' []) = width s.
Proof.
  induction n as [|n IH]; intros k wn Hk HW Hr.
  - exists wn. simpl. split; auto. split; auto. intros q Hq. rewrite Hr by auto. destruct (Nat.ltb_spec (q + eb) k); auto; lia.
  - cbn [seq mfold]. destruct ((eb <=? k) && (k <? eb + nb)) eqn:Em.
    + apply andb_true_iff in Em as [E1 E2]. apply Nat.leb_le in E1. apply Nat.ltb_lt in E2.
      destruct (edisp_range_width (k - eb)) as (k1 & E); [lia|]. rewrite E. rewrite (vec_get_ok wn _ []) by lia. cbn [obind]. rewrite vec_set_ok by lia. cbn [obind].
      apply (IH (S k)); [lia|now rewrite upd_length|]. intros q Hq. destruct (Nat.eq_dec q (k - eb)) as [->|Hne].
      * rewrite nth_upd_eq by lia. rewrite vec_resize_length. destruct (Nat.ltb_spec (k - eb + eb) (S k)); lia.
      * rewrite nth_upd_neq by auto. rewrite Hr by auto. destruct (Nat.ltb_spec (q + eb) k), (Nat.ltb_spec (q + eb) (S k)); auto; lia.
    + cbn [obind]. apply (IH (S k)); [lia|auto|]. intros q Hq. rewrite Hr by auto. apply andb_false_iff in Em.
      assert (q + eb <> k) by (intros <-; destruct Em as [Em|Em]; [apply Nat.leb_gt in Em; lia|apply Nat.ltb_ge in Em; lia]).
      destruct (Nat.ltb_spec (q + eb) k), (Nat.ltb_spec (q + eb) (S k)); auto; lia.
Qed.
Definition in_t (t : nat) (kv : nat * R) : R := if fst kv / np =? t then snd kv else 0%R.
Lemma sv_get_ok i : exists x, sv_get v i = Ok x.
Proof. pose proof (so_img s OK) as Hi. rewrite HV in Hi. destruct Hi as (_ & Hs & _). rewrite sv_get_assoc by exact Hs. eauto. Qed.
Definition lens (wn : list (list (R * R))) : Prop := length wn = nb /\ forall q, q < nb -> length (nth q wn []) = width s.
Lemma row_loop kmeas j w k1 : kmeas < nb -> forall n a wn, a + n <= width s -> lens wn ->
  exists wn', mfold (fun wn ik =>
            let (i, kk) := (ik : nat * Z) in
            row <- vec_at wn kmeas ;; ab <- vec_at row i ;;
            let i0 := (kk * Z.of_nat np + Z.of_nat j)%Z in
            m0 <- (if (i0 <? 0)%Z then UB else sv_get v (Z.to_nat i0)) ;;
            m1 <- (if (i0 + Z.of_nat np <? 0)%Z then UB else sv_get v (Z.to_nat (i0 + Z.of_nat np))) ;;
            row' <- vec_set row i ((fst ab + w * m0)%R, (snd ab + w * m1)%R) ;;
            vec_set wn kmeas row') (map (fun i => (i, Z.of_nat (k1 + i))) (seq a n)) wn = Ok wn' /\ lens wn'.
Proof.
  intros Hk. induction n as [|n IH]; intros a wn Ha [HL HR]; cbn [seq map mfold]; [eexists; split; [reflexivity|split; auto]|].
  unfold vec_at. rewrite (nth_error_nth' wn []) by lia. cbn [obind]. pose proof (HR kmeas Hk) as Hlen. rewrite (nth_error_nth' (nth kmeas wn []) (0%R, 0%R)) by lia. cbn [obind]. cbv zeta.
  destruct (Z.ltb_spec (Z.of_nat (k1 + a) * Z.of_nat np + Z.of_nat j) 0); [nia|]. destruct (sv_get_ok (Z.to_nat (Z.of_nat (k1 + a) * Z.of_nat np + Z.of_nat j))) as [x ->]. cbn [obind].
  destruct (Z.ltb_spec (Z.of_nat (k1 + a) * Z.of_nat np + Z.of_nat j + Z.of_nat np) 0); [nia|]. destruct (sv_get_ok (Z.to_nat (Z.of_nat (k1 + a) * Z.of_nat np + Z.of_nat j + Z.of_nat np))) as [y ->]. cbn [obind].
  rewrite vec_set_ok by lia. cbn [obind]. rewrite vec_set_ok by lia. cbn [obind].
  apply (IH (S a)); [lia|]. split; [now rewrite upd_length|]. intros q Hq. destruct (Nat.eq_dec q kmeas) as [->|Hne]; [rewrite nth_upd_eq by lia; rewrite upd_length; auto|rewrite nth_upd_neq by auto; auto].
Qed.
Lemma entries_loop : forall l npreds wn, Forall (fun kv => fst kv < (NT + 1) * np) l -> length npreds = NT + 1 -> lens wn ->
  exists npreds' wn', mfold (fun (st : list R * list (list (R * R))) (kv : nat * R) =>
    let (npreds, wn) := st in
    let (i0, x) := kv in
    if np =? 0 then UB else
    let k_true := i0 / np in let j := i0 mod np in
    n <- vec_get npreds k_true ;;
    npreds <- vec_set npreds k_true (n + x)%R ;;
    if (k_true <? sm_eb s) || (sm_eb s + sm_nb s <=? k_true) then Ok (npreds, wn) else
    let kmeas := k_true - sm_eb s in
    w <- weight_at s (kmeas * np + j) ;;
    let (kmin, kmax) := get_edisp_range s kmeas in
    wn <- mfold (fun wn ik =>
            let (i, kk) := (ik : nat * Z) in
            row <- vec_at wn kmeas ;; ab <- vec_at row i ;;
            let i0 := (kk * Z.of_nat np + Z.of_nat j)%Z in
            m0 <- (if (i0 <? 0)%Z then UB else sv_get v (Z.to_nat i0)) ;;
            m1 <- (if (i0 + Z.of_nat np <? 0)%Z then UB else sv_get v (Z.to_nat (i0 + Z.of_nat np))) ;;
            row' <- vec_set row i ((fst ab + w * m0)%R, (snd ab + w * m1)%R) ;;
            vec_set wn kmeas row') (krange kmin kmax) wn ;;
    Ok (npreds, wn)) l (npreds, wn) = Ok (npreds', wn') /\ length npreds' = NT + 1 /\ lens wn' /\
   forall t, t <= NT -> nth t npreds' 0%R = (nth t npreds 0 + Rsum (map (in_t t) l))%R.
Proof.
  induction l as [|[i0 x] l IH]; intros npreds wn HF HL HW; cbn [mfold].
  - exists npreds, wn. split; auto. split; auto. split; auto. intros. unfold Rsum. simpl. ring.
  - inversion HF; subst. cbn [fst] in *. destruct (Nat.eqb_spec np 0) as [E0|E0]; [nia|]. cbv zeta.
    assert (i0 / np < NT + 1) as Hkt by (apply Nat.div_lt_upper_bound; [auto|lia]). assert (i0 mod np < np) as Hj by (apply Nat.mod_upper_bound; auto).
    rewrite (vec_get_ok npreds _ 0%R) by lia. cbn [obind]. rewrite vec_set_ok by lia. cbn [obind].
    assert (forall t, t <= NT -> (nth t (upd npreds (i0 / np) (nth (i0 / np) npreds 0 + x)) 0 + Rsum (map (in_t t) l))%R = (nth t npreds 0 + Rsum (map (in_t t) ((i0, x) :: l)))%R) as Hacc.
    { intros t Ht. change (Rsum (map (in_t t) ((i0, x) :: l))) with (in_t t (i0, x) + Rsum (map (in_t t) l))%R. unfold in_t at 2. cbn [fst snd].
      destruct (Nat.eqb_spec (i0 / np) t) as [<-|Hne]; [rewrite nth_upd_eq by lia; ring|rewrite nth_upd_neq by auto; ring]. }
    destruct ((i0 / np <? eb) || (eb + nb <=? i0 / np)) eqn:Em.
    + cbn [obind]. destruct (IH (upd npreds (i0 / np) (nth (i0 / np) npreds 0%R + x)%R) wn H2 ltac:(now rewrite upd_length) HW) as (n' & w' & E & L & W & S').
      exists n', w'. split; auto. split; auto. split; auto. intros t Ht. rewrite S' by auto. apply Hacc; auto.
    + apply orb_false_iff in Em as [E1 E2]. apply Nat.ltb_ge in E1. apply Nat.leb_gt in E2. rewrite weight_ok by (auto; lia). cbn [obind].
      destruct (edisp_range_width (i0 / np - eb)) as (k1 & E); [lia|]. rewrite E. rewrite krange_nat.
      destruct (row_loop (i0 / np - eb) (i0 mod np) (weight s (i0 / np - eb) (i0 mod np)) k1 ltac:(lia) (width s) 0 wn ltac:(lia) HW) as (wn1 & Ew & Lw). cbv zeta in Ew. rewrite Ew. cbn [obind].
      destruct (IH (upd npreds (i0 / np) (nth (i0 / np) npreds 0%R + x)%R) wn1 H2 ltac:(now rewrite upd_length) Lw) as (n' & w' & E' & L & W & S').
      exists n', w'. split; auto. split; auto. split; auto. intros t Ht. rewrite S' by auto. apply Hacc; auto.
Qed.
Lemma cell_notin l i : ~ In i (map fst l) -> cell l i = 0%R.
Proof. induction l as [|[j x] l IH]; simpl; auto. intros H. destruct (Nat.eqb_spec j i); [tauto|]. apply IH. tauto. Qed.
Lemma single (x : R) t i0 : forall n, Rsum (map (fun p => if i0 =? t * np + p then x else 0%R) (seq 0 n)) = if (t * np <=? i0) && (i0 <? t * np + n) then x else 0%R.
Proof.
  induction n as [|n IH].
  - unfold Rsum; simpl. destruct (Nat.leb_spec (t * np) i0), (Nat.ltb_spec i0 (t * np + 0)); simpl; auto; lia.
  - rewrite Rsum_snoc, IH. destruct (Nat.leb_spec (t * np) i0), (Nat.ltb_spec i0 (t * np + n)), (Nat.ltb_spec i0 (t * np + S n)), (Nat.eqb_spec i0 (t * np + n)); simpl; try ring; lia.
Qed.
Lemma sum_entries t l : np <> 0 -> NoDup (map fst l) -> Rsum (map (in_t t) l) = Rsum (map (fun p => cell l (t * np + p)) (seq 0 np)).
Proof.
  intros H0. induction l as [|[i0 x] l IH]; intros HN.
  - symmetry. apply Rsum_zero.
  - inversion HN; subst. cbn [map]. change (Rsum (in_t t (i0, x) :: map (in_t t) l)) with (in_t t (i0, x) + Rsum (map (in_t t) l))%R. rewrite IH by auto.
    transitivity (Rsum (map (fun p => (if i0 =? t * np + p then x else 0) + cell l (t * np + p))%R (seq 0 np))).
    + rewrite Rsum_plus, single. f_equal. unfold in_t. cbn [fst snd].
      destruct (Nat.eqb_spec (i0 / np) t) as [<-|Hne].
      * pose proof (Nat.div_mod i0 np H0). pose proof (Nat.mod_upper_bound i0 np H0). destruct (Nat.leb_spec (i0 / np * np) i0), (Nat.ltb_spec i0 (i0 / np * np + np)); simpl; auto; lia.
      * destruct (Nat.leb_spec (t * np) i0), (Nat.ltb_spec i0 (t * np + np)); simpl; auto. exfalso. apply Hne. symmetry. apply Nat.div_unique with (i0 - t * np); lia.
    + apply Rsum_ext. intros p _. cbn [cell]. destruct (Nat.eqb_spec i0 (t * np + p)) as [->|]; [rewrite cell_notin by auto; ring|ring].
Qed.
Lemma sorted_nodup (l : list nat) : StronglySorted lt l -> NoDup l.
Proof. induction 1; constructor; auto. intros Hin. rewrite Forall_forall in H0. specialize (H0 _ Hin). lia. Qed.
Lemma sparse_ok : exists npreds wn, computeNpredArray_sparse s v = Ok (npreds, wn) /\ arrays_ok npreds wn.
Proof.
  pose proof (so_img s OK) as Hi. rewrite HV, (so_en s OK) in Hi. destruct Hi as (_ & Hs & HF).
  unfold computeNpredArray_sparse, sm_ne. cbv zeta. rewrite (so_en s OK).
  destruct (resize_loop (NT + 1) 0 (repeat [] nb) eq_refl (repeat_length _ _)) as (wn & E & L & Hw).
  { intros q Hq. destruct (Nat.ltb_spec (q + eb) 0); [lia|]. now rewrite nth_repeat. }
  rewrite E. cbn [obind].
  destruct (entries_loop (sv_data v) (repeat 0%R (NT + 1)) wn HF (repeat_length _ _) (conj L Hw)) as (n' & w' & E' & L' & W' & S').
  cbv zeta in E'. exists n', w'. split; [exact E'|]. split; auto. split; [apply W'|]. split; [|apply W'].
  intros t Ht. rewrite S' by auto. rewrite nth_repeat, Rplus_0_l. unfold npred_spec, over_pixels. 
  destruct (Nat.eq_dec np 0) as [E0|E0].
  - rewrite E0. destruct (sv_data v) as [|kv l]; [reflexivity|]. inversion HF; subst. nia.
  - rewrite sum_entries by (auto; apply sorted_nodup; auto). apply Rsum_ext. intros p _. unfold plane, pix. now rewrite HV.
Qed.
End Sparse.

Lemma arrays : exists npreds wn, npred_arrays s = Ok (npreds, wn) /\ arrays_ok npreds wn /\
  (is_full s -> forall q, q < nb -> nth q wn [] = row_spec s q (seq 0 np)).
Proof.
  unfold npred_arrays. destruct (sm_img s) as [m|v] eqn:E.
  - destruct (full_ok s OK m E) as (n & w & E' & A & B & C & D). exists n, w. split; auto. split; [|intros _; exact D].
    split; auto. split; auto. split; auto. intros q Hq. rewrite D by auto. apply row_len.
  - destruct (sparse_ok v E) as (n & w & E' & A). exists n, w. split; auto. split; auto. intros [m Hm]. congruence.
Qed.

(** Sums over a window. *)
Section Spec.
Variables (spec : list R) (HS : length spec = NT + 1).
Notation W := (wts_of spec (sm_en s) (sm_ler s)).
Definition disp (col : list R) (k0 n : nat) (g : nat -> R * R) : R :=
  Rsum (map (fun i => (nth i col 0 * (fst (g i) * fst (nth (k0 + i)%nat W (0, 0)) + snd (g i) * snd (nth (k0 + i)%nat W (0, 0))))%R) (seq 0 n)).
Variables (npreds : list R) (wn : list (list (R * R))) (HA : arrays_ok npreds wn).
Definition totals (k0 i : nat) : R * R := (npred_spec s (k0 + i), npred_spec s (S (k0 + i))).
Lemma npred_edisp_ok row col k0 n : k0 + n <= NT -> n <= length col -> n <= length row ->
  npred_edisp npreds row W col (Z.of_nat k0) (Z.of_nat (k0 + n)) = Ok (disp col k0 n (totals k0), disp col k0 n (fun i => nth i row (0%R, 0%R))).
Proof.
  intros Hn Hc Hr. destruct HA as (A1 & A2 & A3 & A4). unfold npred_edisp. rewrite krange_nat.
  assert (forall n' a x, a + n' <= n ->
    mfold (fun ret ik =>
    let (idx, k) := (ik : nat * Z) in
    n0 <- getZ npreds k ;; w <- getZ W k ;; n1 <- getZ npreds (k + 1) ;; c <- vec_get col idx ;; x <- vec_get row idx ;;
    Ok ((fst ret + c * (n0 * fst w + n1 * snd w))%R, (snd ret + c * (fst x * fst w + snd x * snd w))%R)) (map (fun i => (i, Z.of_nat (k0 + i))) (seq a n')) x =
    Ok ((fst x + Rsum (map (fun i => (nth i col 0 * (fst (totals k0 i) * fst (nth (k0 + i)%nat W (0, 0)) + snd (totals k0 i) * snd (nth (k0 + i)%nat W (0, 0))))%R) (seq a n')))%R,
        (snd x + Rsum (map (fun i => (nth i col 0 * (fst (nth i row (0, 0)) * fst (nth (k0 + i)%nat W (0, 0)) + snd (nth i row (0, 0)) * snd (nth (k0 + i)%nat W (0, 0))))%R) (seq a n')))%R)) as H.
  { induction n' as [|n' IH]; intros a x Ha.
    - simpl. unfold Rsum. simpl. rewrite !Rplus_0_r. destruct x; reflexivity.
    - cbn [seq map mfold]. rewrite (getZ_ok npreds _ 0%R) by lia. cbn [obind]. rewrite (getZ_ok W _ (0%R, 0%R)) by (rewrite wts_len, (so_ler s OK); lia). cbn [obind].
      replace (Z.of_nat (k0 + a) + 1)%Z with (Z.of_nat (S (k0 + a))) by lia. rewrite (getZ_ok npreds _ 0%R) by lia. cbn [obind].
      rewrite (vec_get_ok col _ 0%R) by lia. cbn [obind]. rewrite (vec_get_ok row _ (0%R, 0%R)) by lia. cbn [obind].
      rewrite IH by lia. cbn [fst snd]. rewrite !A3 by lia. unfold Rsum. cbn [fold_right]. unfold totals. cbn [fst snd]. f_equal. f_equal; ring. }
  rewrite (H n 0 (0%R, 0%R)) by lia. cbn [fst snd]. rewrite !Rplus_0_l. reflexivity.
Qed.
Lemma npred_contribution_ok x xi k0 : k0 < NT ->
  npred_contribution npreds x W xi (Z.of_nat k0) = Ok (disp [xi] k0 1 (totals k0), disp [xi] k0 1 (fun i => nth i [x] (0%R, 0%R))).
Proof.
  intros Hk. destruct HA as (A1 & A2 & A3 & A4). unfold npred_contribution. rewrite (getZ_ok npreds _ 0%R) by lia. cbn [obind].
  rewrite (getZ_ok W _ (0%R, 0%R)) by (rewrite wts_len, (so_ler s OK); lia). cbn [obind]. replace (Z.of_nat k0 + 1)%Z with (Z.of_nat (S k0)) by lia. rewrite (getZ_ok npreds _ 0%R) by lia. cbn [obind].
  rewrite !A3 by lia. unfold disp, totals, Rsum. cbn [seq map fold_right nth fst snd]. rewrite !Nat.add_0_r. f_equal. f_equal; ring.
Qed.

(** The window sums are sums over pixels. *)
Lemma disp_pixels col k0 n (w : nat -> R) : k0 + n <= NT ->
  disp col k0 n (fun i => (Rsum (map (fun p => w p * plane s (k0 + i) p)%R (seq 0 np)), Rsum (map (fun p => w p * plane s (S (k0 + i)) p)%R (seq 0 np)))) =
  Rsum (map (fun p => (w p * Rsum (map (fun i => nth i col 0 * bin_counts s spec (k0 + i)%nat p) (seq 0 n)))%R) (seq 0 np)).
Proof.
  intros Hn. unfold disp.
  transitivity (Rsum (map (fun i => Rsum (map (fun p => (w p * (nth i col 0 * bin_counts s spec (k0 + i)%nat p))%R) (seq 0 np))) (seq 0 n))).
  - apply Rsum_ext. intros i Hi. apply in_seq in Hi. cbn [fst snd].
    transitivity (nth i col 0 * (fst (nth (k0 + i)%nat W (0, 0)) * Rsum (map (fun p => (w p * plane s (k0 + i) p)%R) (seq 0 np)) + snd (nth (k0 + i)%nat W (0, 0)) * Rsum (map (fun p => (w p * plane s (S (k0 + i)) p)%R) (seq 0 np))))%R; [ring|].
    rewrite <- !Rsum_scal, <- Rsum_plus, <- Rsum_scal. apply Rsum_ext. intros p _. rewrite <- (bc_bin s OK) by lia. unfold bc. ring.
  - rewrite Rsum_swap. apply Rsum_ext. intros p _. apply Rsum_scal.
Qed.
Lemma totals_pixels col k0 n : k0 + n <= NT ->
  disp col k0 n (totals k0) = Rsum (map (fun p => Rsum (map (fun i => (nth i col 0 * bin_counts s spec (k0 + i)%nat p)%R) (seq 0 n))) (seq 0 np)).
Proof.
  intros Hn. transitivity (disp col k0 n (fun i => (Rsum (map (fun p => 1 * plane s (k0 + i) p)%R (seq 0 np)), Rsum (map (fun p => 1 * plane s (S (k0 + i)) p)%R (seq 0 np))))).
  - unfold disp. apply Rsum_ext. intros i _. unfold totals, npred_spec, over_pixels. cbn [fst snd].
    rewrite (Rsum_ext (fun p => 1 * plane s (k0 + i) p)%R (plane s (k0 + i))) by (intros; ring). rewrite (Rsum_ext (fun p => 1 * plane s (S (k0 + i)) p)%R (plane s (S (k0 + i)))) by (intros; ring). reflexivity.
  - rewrite (disp_pixels col k0 n (fun _ => 1%R)) by auto. apply Rsum_ext. intros; ring.
Qed.

(** What the loop computes for measured bin [k], for a column [col'] (the response or ones). *)
Definition window (k : nat) : nat := k0_of s k.
Definition unweighted (k : nat) (col : list R) : R := Rsum (map (fun p => Rsum (map (fun i => (nth i col 0 * bin_counts s spec (window k + i)%nat p)%R) (seq 0 (width s)))) (seq 0 np)).
Definition weighted (k : nat) (col : list R) : R := disp col (window k) (width s) (fun i => nth i (nth k wn []) (0%R, 0%R)).
Lemma npreds_of_bin k col : k < nb -> width s <= length col -> window k + width s <= NT ->
  (if (0 <? sm_ev s)%Z then npred_edisp npreds (nth k wn []) W col (Z.of_nat (window k)) (Z.of_nat (window k + width s))
   else x <- vec_at (nth k wn []) 0 ;; xi <- vec_get col 0 ;; npred_contribution npreds x W xi (Z.of_nat (window k))) = Ok (unweighted k col, weighted k col).
Proof.
  intros Hk Hc Hb. destruct HA as (A1 & A2 & A3 & A4). pose proof (A4 k Hk) as Hr. unfold unweighted, weighted.
  rewrite <- totals_pixels by auto. destruct (Z.ltb_spec 0 (sm_ev s)).
  - apply npred_edisp_ok; lia.
  - assert (width s = 1) as E1 by (unfold width; destruct (Z.ltb_spec 0 (sm_ev s)); lia). rewrite E1 in *.
    unfold vec_at. destruct (nth k wn []) as [|x [|]]; try discriminate. destruct col as [|c col]; [simpl in Hc; lia|]. cbn [nth_error obind]. cbn [vec_get nth_error obind].
    rewrite npred_contribution_ok by lia. reflexivity.
Qed.
Lemma unweighted_ok k col : get_edisp_constants s k = Ok (Z.of_nat (window k), Z.of_nat (window k + length col), col) -> response s k = combine (seq (window k) (length col)) col ->
  length col = width s -> unweighted k col = over_pixels s (counts_at s spec k).
Proof.
  intros _ Hr Hl. unfold unweighted, over_pixels, counts_at. apply Rsum_ext. intros p _. rewrite Hr, (wsum_seq (fun t => bin_counts s spec t p)), Hl. reflexivity.
Qed.
Lemma weighted_ok k col : k < nb -> response s k = combine (seq (window k) (length col)) col -> length col = width s -> window k + width s <= NT ->
  row0 s k = window k -> nth k wn [] = row_spec s k (seq 0 np) ->
  weighted k col = over_pixels s (fun p => weight s k p * counts_at s spec k p)%R.
Proof.
  intros Hk Hr Hl Hb H0 Hw. unfold weighted. transitivity (disp col (window k) (width s) (fun i => (Rsum (map (fun p => weight s k p * plane s (window k + i) p)%R (seq 0 np)), Rsum (map (fun p => weight s k p * plane s (S (window k + i)) p)%R (seq 0 np))))).
  - unfold disp. apply Rsum_ext. intros i Hi. apply in_seq in Hi. rewrite Hw, row_nth by lia. rewrite H0. reflexivity.
  - rewrite disp_pixels by auto. unfold over_pixels. apply Rsum_ext. intros p _. unfold counts_at. rewrite Hr, (wsum_seq (fun t => bin_counts s spec t p)), Hl. reflexivity.
Qed.
End Spec.
End S.

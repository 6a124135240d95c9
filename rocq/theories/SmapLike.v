From Coq Require Import Reals Lra Sorted.
From Verif Require Import Base AccumModel AccumProofs SparseModel SparseProofs SmapModel SmapSpec CountsProofs SmapProofs SmapNpred SmapFixed.
Local Open Scope outcome_scope.

Section S.
Variables (s : smap) (OK : sm_ok s).
Notation np := (sm_np s). Notation nb := (sm_nb s). Notation eb := (sm_eb s). Notation NT := (sm_nb s + 2 * sm_eb s).

(** The weighted sums use the planes the response reads. *)
Definition own_bin (k : nat) : Prop := (sm_ev s < 0)%Z -> (snd (nth k (sm_corr s) (1%R, (-1)%Z)) < 0)%Z.
Lemma own_row0 k : own_bin k -> row0 s k = window s k.
Proof.
  intros H. unfold row0, window, k0_of. destruct (Z.ltb_spec 0 (sm_ev s)); auto. unfold response.
  destruct (Z.eqb_spec (sm_ev s) 0); auto. destruct (Z.ltb_spec (sm_ev s) 0); [|lia].
  destruct (Z.leb_spec 0 (snd (nth k (sm_corr s) (1%R, (-1)%Z)))); auto. specialize (H ltac:(lia)). lia.
Qed.
Lemma win k : k < nb -> exists col, get_edisp_constants s k = Ok (Z.of_nat (window s k), Z.of_nat (window s k + length col), col) /\
  response s k = combine (seq (window s k) (length col)) col /\ window s k + width s <= NT /\ length col = width s.
Proof. intros Hk. destruct (ec_ok s OK k Hk) as (col & E & R & B & L). exists col. unfold window, width. rewrite L in B. auto. Qed.
Lemma width_eb : width s <= 2 * eb + 1.
Proof. unfold width. destruct (Z.ltb_spec 0 (sm_ev s)); [|lia]. destruct (so_new s OK); auto. lia. Qed.

Section Fixed.
Variables (npreds : list R) (wn : list (list (R * R))) (HA : arrays_ok s npreds wn) (spec : list R) (HS : length spec = NT + 1).
Notation W := (wts_of spec (sm_en s) (sm_ler s)).
Definition fs_len (f : fixed_spec) : Prop := length (fs_spec f) = nb /\ length (fs_wt f) = nb /\ length (fs_ed f) = nb /\ length (fs_ed_wt f) = nb.
Lemma add_at_ok l k x : k < length l -> add_at l k x = Ok (upd l k (nth k l 0 + x)%R).
Proof. intros H. unfold add_at. rewrite (vec_get_ok l k 0%R) by auto. cbn [obind]. apply vec_set_ok; auto. Qed.
Definition fbody (sign : R) := (fun f k =>
    ec <- get_edisp_constants s k ;;
    let '(kmin, kmax, col) := (ec : Z * Z * list R) in
    row <- vec_at wn k ;;
    c <- (if (0 <? sm_ev s)%Z then
            a <- npred_edisp npreds row W (repeat 1%R (2 * eb + 1)) kmin kmax ;; b <- npred_edisp npreds row W col kmin kmax ;; Ok (a, b)
          else
            x <- vec_at row 0 ;; o <- vec_get (repeat 1%R (2 * eb + 1)) 0 ;;
            a <- npred_contribution npreds x W o kmin ;;
            xi <- vec_get col 0 ;; b <- npred_contribution npreds x W xi kmin ;; Ok (a, b)) ;;
    let '((counts, counts_wt), (counts_ed, counts_ed_wt)) := (c : (R * R) * (R * R)) in
    s1 <- add_at (fs_spec f) k (sign * counts)%R ;; s2 <- add_at (fs_wt f) k (sign * counts_wt)%R ;;
    s3 <- add_at (fs_ed f) k (sign * counts_ed)%R ;; s4 <- add_at (fs_ed_wt f) k (sign * counts_ed_wt)%R ;;
    Ok (mk_fs s1 s2 s3 s4)).
Lemma pair_ok k col : k < nb -> length col = width s -> window s k + width s <= NT ->
  (if (0 <? sm_ev s)%Z then
            a <- npred_edisp npreds (nth k wn []) W (repeat 1%R (2 * eb + 1)) (Z.of_nat (window s k)) (Z.of_nat (window s k + length col)) ;;
            b <- npred_edisp npreds (nth k wn []) W col (Z.of_nat (window s k)) (Z.of_nat (window s k + length col)) ;; Ok (a, b)
          else
            x <- vec_at (nth k wn []) 0 ;; o <- vec_get (repeat 1%R (2 * eb + 1)) 0 ;;
            a <- npred_contribution npreds x W o (Z.of_nat (window s k)) ;;
            xi <- vec_get col 0 ;; b <- npred_contribution npreds x W xi (Z.of_nat (window s k)) ;; Ok (a, b)) =
  Ok ((unweighted s spec k (repeat 1%R (2 * eb + 1)), weighted s spec wn k (repeat 1%R (2 * eb + 1))), (unweighted s spec k col, weighted s spec wn k col)).
Proof.
  intros Hk Hl Hb. pose proof (npreds_of_bin s OK spec HS npreds wn HA k col Hk ltac:(lia) Hb) as H2.
  pose proof (npreds_of_bin s OK spec HS npreds wn HA k (repeat 1%R (2 * eb + 1)) Hk ltac:(rewrite repeat_length; apply width_eb) Hb) as H1.
  rewrite Hl. destruct (0 <? sm_ev s)%Z.
  - rewrite H1. cbn [obind]. rewrite H2. reflexivity.
  - destruct (vec_at (nth k wn []) 0) as [x| |]; try discriminate. cbn [obind] in *. destruct (vec_get (repeat 1%R (2 * eb + 1)) 0) as [o| |]; try discriminate. cbn [obind] in *.
    rewrite H1. cbn [obind]. destruct (vec_get col 0) as [xi| |]; try discriminate. cbn [obind] in *. rewrite H2. reflexivity.
Qed.
Lemma fixed_loop sign : forall n k f, k + n = nb -> fs_len f ->
  exists f', mfold (fbody sign) (seq k n) f = Ok f' /\ fs_len f' /\ forall q, q < nb ->
    exists col, response s q = combine (seq (window s q) (length col)) col /\ length col = width s /\ window s q + width s <= NT /\
    let a := (if k <=? q then sign else 0)%R in
    (nth q (fs_spec f') 0 = nth q (fs_spec f) 0 + a * unweighted s spec q (repeat 1%R (2 * eb + 1)) /\
     nth q (fs_wt f') 0 = nth q (fs_wt f) 0 + a * weighted s spec wn q (repeat 1%R (2 * eb + 1)) /\
     nth q (fs_ed f') 0 = nth q (fs_ed f) 0 + a * unweighted s spec q col /\
     nth q (fs_ed_wt f') 0 = nth q (fs_ed_wt f) 0 + a * weighted s spec wn q col)%R.
Proof.
  induction n as [|n IH]; intros k f Hk HL.
  - exists f. split; auto. split; auto. intros q Hq. destruct (win q Hq) as (col & E & R & B & L). exists col. split; auto. split; auto. split; auto.
    cbv zeta. destruct (Nat.leb_spec k q); [lia|]. rewrite !Rmult_0_l, !Rplus_0_r. auto.
  - cbn [seq mfold]. destruct (win k ltac:(lia)) as (col & E & R & B & L). unfold fbody at 1. rewrite E. cbn [obind].
    destruct HA as (A1 & A2 & A3 & A4). unfold vec_at at 1. rewrite (nth_error_nth' wn []) by lia. cbn [obind]. rewrite pair_ok by (auto; lia). cbn [obind].
    destruct HL as (L1 & L2 & L3 & L4). repeat (rewrite add_at_ok by lia; cbn [obind]).
    match goal with |- context [mfold _ _ ?g] => set (f1 := g) end.
    destruct (IH (S k) f1) as (f' & E' & L' & Hq); [lia|unfold f1, fs_len; simpl; rewrite !upd_length; auto|].
    exists f'. split; auto. split; auto. intros q Hlt. destruct (Hq q Hlt) as (col' & R' & L'' & B' & H1 & H2 & H3 & H4). exists col'. split; auto. split; auto. split; auto. cbv zeta.
    destruct (Nat.eq_dec q k) as [->|Hne].
    + assert (col' = col) as ->.
      { rewrite R in R'. rewrite L, L'' in R'. clear - R' L L''. revert R'. generalize (window s k). revert col col' L L''. generalize (width s). induction n; intros [|c col] [|c' col'] La Lb w Ew; try discriminate; auto. simpl in Ew. injection Ew as Ec Er. f_equal; [congruence|]. simpl in La, Lb. apply (IHn col col' ltac:(lia) ltac:(lia) _ Er). }
      destruct (Nat.leb_spec (S k) k); [lia|]. destruct (Nat.leb_spec k k); [|lia].
      rewrite H1, H2, H3, H4. unfold f1. cbn [fs_spec fs_wt fs_ed fs_ed_wt]. rewrite !nth_upd_eq by lia. repeat split; ring.
    + replace (k <=? q) with (S k <=? q) by (destruct (Nat.leb_spec (S k) q), (Nat.leb_spec k q); auto; lia).
      rewrite H1, H2, H3, H4. unfold f1. cbn [fs_spec fs_wt fs_ed fs_ed_wt]. rewrite !nth_upd_neq by auto. auto.
Qed.
End Fixed.

Lemma addFixed_wt f subtract npreds wn : npred_arrays s = Ok (npreds, wn) -> arrays_ok s npreds wn -> fs_len f ->
  exists f', addFixedNpreds f s subtract = Ok f' /\ fs_len f' /\ forall k, k < nb ->
    (nth k (fs_ed_wt f') 0 = nth k (fs_ed_wt f) 0 + (if subtract then -1 else 1) * weighted s (sm_spec s) wn k (map snd (response s k)))%R.
Proof.
  intros E HA HL. unfold addFixedNpreds. assert (length (sm_spec s) = NT + 1) as HS by (rewrite (so_spec s OK), (so_en s OK); lia).
  rewrite E. cbn [obind]. rewrite (wts_ok s OK) by auto. cbn [obind]. cbv zeta.
  destruct (fixed_loop npreds wn HA (sm_spec s) HS (if subtract then (-1)%R else 1%R) nb 0 f eq_refl HL) as (f' & E' & L' & Hq).
  exists f'. split; [exact E'|]. split; auto. intros k Hk. destruct (Hq k Hk) as (col & R & L & B & H1 & H2 & H3 & H4). cbn [Nat.leb] in *. rewrite H4. f_equal. f_equal. f_equal.
  rewrite R. clear. generalize (window s k). induction col; intros w; auto. cbn [length seq combine map snd]. now rewrite <- IHcol.
Qed.
Definition free_of_dispersion (k : nat) : R := over_pixels s (bin_counts s (sm_spec s) (window s k)).
Lemma ones_single k p : width s = 1 -> Rsum (map (fun i => (nth i (repeat 1 (2 * eb + 1)) 0 * bin_counts s (sm_spec s) (window s k + i)%nat p)%R) (seq 0 (width s))) = bin_counts s (sm_spec s) (window s k) p.
Proof. intros ->. unfold Rsum. cbn [seq map fold_right]. replace (2 * eb + 1) with (S (2 * eb)) by lia. cbn [repeat nth]. rewrite Nat.add_0_r. ring. Qed.

Lemma addFixedNpreds_ok f subtract : fs_len f ->
  exists f', addFixedNpreds f s subtract = Ok f' /\ fs_len f' /\ forall k, k < nb ->
    let a := if subtract then (-1)%R else 1%R in
    (nth k (fs_ed f') 0 = nth k (fs_ed f) 0 + a * over_pixels s (counts_at s (sm_spec s) k))%R /\
    ((sm_ev s <= 0)%Z -> nth k (fs_spec f') 0 = nth k (fs_spec f) 0 + a * free_of_dispersion k)%R /\
    (is_full s -> own_bin k -> nth k (fs_ed_wt f') 0 = nth k (fs_ed_wt f) 0 + a * over_pixels s (fun p => weight s k p * counts_at s (sm_spec s) k p))%R /\
    (is_full s -> own_bin k -> (sm_ev s <= 0)%Z -> nth k (fs_wt f') 0 = nth k (fs_wt f) 0 + a * over_pixels s (fun p => weight s k p * bin_counts s (sm_spec s) (window s k) p))%R.
Proof.
  intros HL. unfold addFixedNpreds. assert (length (sm_spec s) = NT + 1) as HS by (rewrite (so_spec s OK), (so_en s OK); lia).
  destruct (arrays s OK) as (npreds & wn & E & HA & Hfull). rewrite E. cbn [obind]. rewrite (wts_ok s OK) by auto. cbn [obind]. cbv zeta.
  destruct (fixed_loop npreds wn HA (sm_spec s) HS (if subtract then (-1)%R else 1%R) nb 0 f eq_refl HL) as (f' & E' & L' & Hq).
  exists f'. split; [exact E'|]. split; auto. intros k Hk. destruct (Hq k Hk) as (col & R & L & B & H1 & H2 & H3 & H4). cbn [Nat.leb] in *.
  destruct (win k Hk) as (col' & Ec & R' & B' & Lc).
  split; [|split; [|split]].
  - rewrite H3. f_equal. f_equal. unfold unweighted, over_pixels, counts_at. apply Rsum_ext. intros p _. rewrite R, (wsum_seq (fun t => bin_counts s (sm_spec s) t p)), L. reflexivity.
  - intros Hev. assert (width s = 1) as W1 by (unfold width; destruct (Z.ltb_spec 0 (sm_ev s)); lia). rewrite H1. f_equal. f_equal. unfold unweighted, free_of_dispersion, over_pixels.
    apply Rsum_ext. intros p _. apply ones_single; auto.
  - intros Hf Ho. rewrite H4. f_equal. f_equal. apply (weighted_ok s OK (sm_spec s) HS wn); auto. apply own_row0; auto.
  - intros Hf Ho Hev. assert (width s = 1) as W1 by (unfold width; destruct (Z.ltb_spec 0 (sm_ev s)); lia). rewrite H2. f_equal. f_equal. unfold weighted.
    rewrite <- own_row0 by auto. transitivity (disp s (sm_spec s) (repeat 1%R (2 * eb + 1)) (row0 s k) (width s) (fun i => (Rsum (map (fun p => weight s k p * plane s (row0 s k + i) p)%R (seq 0 np)), Rsum (map (fun p => weight s k p * plane s (S (row0 s k + i)) p)%R (seq 0 np))))).
    + unfold disp. apply Rsum_ext. intros i Hi. apply in_seq in Hi. rewrite Hfull, row_nth by (auto; lia). reflexivity.
    + rewrite (disp_pixels s OK _ HS) by (rewrite own_row0; auto). unfold over_pixels. apply Rsum_ext. intros p _. f_equal. rewrite own_row0 by auto. apply ones_single; auto.
Qed.

(** addFreeDerivs. *)
Variables (dc : dcache) (DC : dc_ok s dc).
Notation fi := (dc_first dc). Notation fl := (dc_filled dc).
Definition plane_entries (k : nat) : list nat := seq (nth k fi 0) (nth (S k) fi 0 - nth k fi 0).
Definition first_term (dspec dom : list R) (k : nat) : R :=
  Rsum (map (fun j => if Rleb (nth j dom 0) 0 then 0 else nth j dom 0 * counts_at s dspec k (nth j fl 0%nat))%R (plane_entries k)).
Definition acc (pn : R * R) (x : R) := if Rltb 0 x then ((fst pn + x)%R, snd pn) else (fst pn, (snd pn + x)%R).
Lemma acc_sum pn x : (fst (acc pn x) + snd (acc pn x) = fst pn + snd pn + x)%R.
Proof. unfold acc. destruct (Rltb 0 x); simpl; ring. Qed.
Lemma first_term_ok dspec dom k ec : length dspec = NT + 1 -> length dom = length fl -> k < nb -> get_edisp_constants s k = Ok ec -> forall l pn,
  Forall (fun j => j < length fl) l ->
  exists pn', mfold (fun pn j =>
            d <- vec_get dom j ;;
            if Rleb d 0 then Ok pn else
            ipix <- vec_get fl j ;;
            cd <- counts_in_pixel s (wts_of dspec (sm_en s) (sm_ler s)) (sm_np s) ec ipix ;;
            Ok (acc pn (d * cd)%R)) l pn = Ok pn' /\
   (fst pn' + snd pn' = fst pn + snd pn + Rsum (map (fun j => if Rleb (nth j dom 0) 0 then 0 else nth j dom 0 * counts_at s dspec k (nth j fl 0%nat)) l))%R.
Proof.
  intros HS HD Hk E. destruct DC as (F1 & F2 & F3 & F4 & F5). induction l as [|j l IH]; intros pn HF; cbn [mfold].
  - exists pn. split; auto. unfold Rsum. simpl. ring.
  - inversion HF as [|? ? Hjl HFl]; subst. rewrite (vec_get_ok dom j 0%R) by lia. cbn [obind map].
    change (Rsum ((if Rleb (nth j dom 0) 0 then 0%R else nth j dom 0 * counts_at s dspec k (nth j fl 0%nat))%R :: map (fun j0 => if Rleb (nth j0 dom 0) 0 then 0%R else nth j0 dom 0 * counts_at s dspec k (nth j0 fl 0%nat))%R l))
     with ((if Rleb (nth j dom 0) 0 then 0 else nth j dom 0 * counts_at s dspec k (nth j fl 0%nat)) + Rsum (map (fun j0 => if Rleb (nth j0 dom 0) 0 then 0 else nth j0 dom 0 * counts_at s dspec k (nth j0 fl 0%nat))%R l))%R.
    destruct (Rleb (nth j dom 0%R) 0).
    + cbn [obind]. destruct (IH pn HFl) as (pn' & E' & S'). exists pn'. split; auto. rewrite S'. ring.
    + rewrite (vec_get_ok fl j 0) by auto. cbn [obind]. rewrite (counts_ok s OK dspec k (nth j fl 0) HS Hk) by (auto; rewrite Forall_forall in F5; apply F5, nth_In; auto). cbn [obind].
      destruct (IH (acc pn (nth j dom 0 * counts_at s dspec k (nth j fl 0%nat))%R) HFl) as (pn' & E' & S'). exists pn'. split; auto. rewrite S', acc_sum. ring.
Qed.
Definition column (k : nat) : list R := map snd (response s k).
Lemma column_ok k col : response s k = combine (seq (window s k) (length col)) col -> column k = col.
Proof.
  intros H. unfold column. rewrite H. generalize (window s k). clear H. induction col; intros w; auto. cbn [length seq combine map snd]. now rewrite IHcol.
Qed.
Lemma addFreeDeriv_gen dspec dom k1 k2 npreds wn : npred_arrays s = Ok (npreds, wn) -> arrays_ok s npreds wn -> length dspec = NT + 1 -> length dom = length fl -> k1 <= k2 <= nb ->
  exists pn, addFreeDeriv s dspec dom dc k1 k2 = Ok pn /\
  (fst pn + snd pn = Rsum (map (fun k => first_term dspec dom k - weighted s dspec wn k (column k)) (seq k1 (k2 - k1))))%R.
Proof.
  intros E HA HS HD Hk. unfold addFreeDeriv. rewrite E. cbn [obind]. rewrite (wts_ok s OK) by auto. cbn [obind]. cbv zeta.
  fold acc. destruct DC as (F1 & F2 & F3 & F4 & F5).
  assert (forall n k pn, k1 <= k -> k + n <= k2 -> exists pn', mfold (fun pn k =>
    ec <- get_edisp_constants s k ;;
    j_start <- vec_get (dc_first dc) k ;; j_stop <- vec_get (dc_first dc) (S k) ;;
    pn <- mfold (fun pn j =>
            d <- vec_get dom j ;;
            if Rleb d 0 then Ok pn else
            ipix <- vec_get (dc_filled dc) j ;;
            cd <- counts_in_pixel s (wts_of dspec (sm_en s) (sm_ler s)) (sm_np s) ec ipix ;;
            Ok (acc pn (d * cd)%R)) (seq j_start (j_stop - j_start)) pn ;;
    row <- vec_at wn k ;;
    let '(kmin, kmax, col) := (ec : Z * Z * list R) in
    c <- (if (0 <? sm_ev s)%Z then npred_edisp npreds row (wts_of dspec (sm_en s) (sm_ler s)) col kmin kmax
          else x <- vec_at row 0 ;; xi <- vec_get col 0 ;; npred_contribution npreds x (wts_of dspec (sm_en s) (sm_ler s)) xi kmin) ;;
    Ok (acc pn (- snd c)%R)) (seq k n) pn = Ok pn' /\
    (fst pn' + snd pn' = fst pn + snd pn + Rsum (map (fun k => first_term dspec dom k - weighted s dspec wn k (column k)) (seq k n)))%R) as H.
  { induction n as [|n IH]; intros k pn H1 H2; cbn [seq mfold map].
    - exists pn. split; auto. unfold Rsum. simpl. ring.
    - destruct (win k ltac:(lia)) as (col & Ec & Rc & B & L). rewrite Ec. cbn [obind]. rewrite (vec_get_ok fi k 0) by lia. cbn [obind]. rewrite (vec_get_ok fi (S k) 0) by lia. cbn [obind].
      destruct (first_term_ok dspec dom k _ HS HD ltac:(lia) Ec (plane_entries k) pn) as (pn1 & E1 & S1).
      { apply Forall_forall. intros j Hj. unfold plane_entries in Hj. apply in_seq in Hj. pose proof (first_le s dc DC (S k) ltac:(lia)). pose proof (F4 k ltac:(lia)). lia. }
      unfold plane_entries in E1. cbn [obind] in E1 |- *. rewrite E1. cbn [obind]. destruct HA as (A1 & A2 & A3 & A4).
      unfold vec_at at 1. rewrite (nth_error_nth' wn []) by lia. cbn [obind].
      pose proof (npreds_of_bin s OK dspec HS npreds wn (conj A1 (conj A2 (conj A3 A4))) k col ltac:(lia) ltac:(lia) B) as H3. rewrite L. rewrite H3. cbn [obind snd].
      rewrite (column_ok k col Rc).
      destruct (IH (S k) (acc pn1 (- weighted s dspec wn k col)%R) ltac:(lia) ltac:(lia)) as (pn2 & E2 & S2).
      exists pn2. split; [exact E2|]. rewrite S2, acc_sum, S1. unfold Rsum. cbn [fold_right]. fold Rsum. unfold first_term, plane_entries, Rsum. ring. }
  destruct (H (k2 - k1) k1 (0%R, 0%R) ltac:(lia) ltac:(lia)) as (pn & E1 & S1). exists pn. split; [exact E1|]. rewrite S1. cbn [fst snd]. ring.
Qed.
End S.

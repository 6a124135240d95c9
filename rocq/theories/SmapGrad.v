From Coq Require Import Reals Lra.
From Coquelicot Require Import Coquelicot.
From Verif Require Import Base AccumModel AccumProofs SparseModel SmapModel SmapSpec CountsProofs SmapProofs SmapNpred SmapFixed SmapLike.
Local Open Scope nat_scope.
Local Open Scope outcome_scope.

(** Finite sums of derivatives. *)
Lemma derive_Rsum {A} (f : A -> R -> R) (df : A -> R) x : forall l, (forall a, In a l -> derivable_pt_lim (f a) x (df a)) ->
  derivable_pt_lim (fun y => Rsum (map (fun a => f a y) l)) x (Rsum (map df l)).
Proof.
  induction l as [|a l IH]; intros H.
  - apply derivable_pt_lim_const.
  - apply (derivable_pt_lim_plus (f a) (fun y => Rsum (map (fun a => f a y) l))); [apply H; left; auto|apply IH; intros; apply H; right; auto].
Qed.
Lemma derive_scal c f x d : derivable_pt_lim f x d -> derivable_pt_lim (fun y => c * f y)%R x (c * d)%R.
Proof. apply derivable_pt_lim_scal. Qed.
Lemma pos_near f x d : derivable_pt_lim f x d -> (0 < f x)%R -> exists delta, (0 < delta)%R /\ forall y, (Rabs (y - x) < delta)%R -> (0 < f y)%R.
Proof.
  intros Hd Hp. assert (derivable_pt f x) as D by (exists d; exact Hd). apply derivable_continuous_pt in D.
  destruct (D (f x) Hp) as (delta & Hd0 & H). exists delta. split; auto. intros y Hy. destruct (Req_dec y x) as [->|Hne]; auto.
  assert (Rabs (f y - f x) < f x)%R as Ha. { apply H. split; [split; [exact I|auto]|exact Hy]. } apply Rabs_def2 in Ha. lra.
Qed.
Lemma all_pos_near {A} (f : A -> R -> R) x : forall l, (forall a, In a l -> (exists d, derivable_pt_lim (f a) x d) /\ (0 < f a x)%R) ->
  exists delta, (0 < delta)%R /\ forall y, (Rabs (y - x) < delta)%R -> forall a, In a l -> (0 < f a y)%R.
Proof.
  induction l as [|a l IH]; intros H; [exists 1%R; split; [lra|intros ? _ ? []]|].
  destruct IH as (d1 & H1 & H1'); [intros; apply H; right; auto|]. destruct (H a (or_introl eq_refl)) as ((d & Hd) & Hp). destruct (pos_near _ _ _ Hd Hp) as (d2 & H2 & H2').
  exists (Rmin d1 d2). split; [apply Rmin_glb_lt; auto|]. intros y Hy b [<-|Hb]; [apply H2'|apply H1'; auto]; eapply Rlt_le_trans; eauto using Rmin_l, Rmin_r.
Qed.

Section S.
Variables (s : smap) (OK : sm_ok s) (dc : dcache) (DC : dc_ok s dc).
Notation np := (sm_np s). Notation nb := (sm_nb s). Notation eb := (sm_eb s). Notation NT := (sm_nb s + 2 * sm_eb s).
Notation fi := (dc_first dc). Notation fl := (dc_filled dc).
Variables (data : list R) (HD : length data = nb * np).
Lemma fl_np j : j < length fl -> nth j fl 0 < np.
Proof. intros H. destruct DC as (_ & _ & _ & _ & F5). rewrite Forall_forall in F5. apply F5, nth_In; auto. Qed.
Lemma entry_lt k j : k < nb -> In j (plane_entries dc k) -> j < length fl.
Proof.
  intros Hk Hj. destruct DC as (F1 & F2 & F3 & F4 & F5). unfold plane_entries in Hj. apply in_seq in Hj. pose proof (first_le s dc DC (S k) ltac:(lia)). pose proof (F4 k ltac:(lia)). lia.
Qed.
Definition datum (k j : nat) : R := nth (k * np + nth j fl 0%nat) data 0%R.
Lemma datum_ok k j : k < nb -> j < length fl -> vec_get data (k * np + nth j fl 0%nat) = Ok (datum k j).
Proof. intros Hk Hj. apply vec_get_ok. pose proof (fl_np j Hj). nia. Qed.

Lemma value_ok model npred k1 k2 : length model = length fl -> k1 <= k2 <= nb -> (forall k j, k1 <= k < k2 -> In j (plane_entries dc k) -> (0 < nth j model 0)%R) ->
  binned_value dc data np model npred k1 k2 = Ok (Rsum (map (fun k => Rsum (map (fun j => datum k j * ln (nth j model 0)) (plane_entries dc k))) (seq k1 (k2 - k1))) + - npred)%R.
Proof.
  intros HL Hk HP. unfold binned_value. destruct DC as (F1 & F2 & F3 & F4 & F5).
  assert (forall n k t, k1 <= k -> k + n <= k2 -> mfold (fun t k =>
    j_start <- vec_get (dc_first dc) k ;; j_stop <- vec_get (dc_first dc) (S k) ;;
    mfold (fun t j =>
      m <- vec_get model j ;;
      if Rleb m 0 then Ok t else
      ipix <- vec_get (dc_filled dc) j ;;
      d <- vec_get data (k * np + ipix) ;;
      Ok (t + d * ln m)%R) (seq j_start (j_stop - j_start)) t) (seq k n) t = Ok (t + Rsum (map (fun k => Rsum (map (fun j => datum k j * ln (nth j model 0)) (plane_entries dc k))) (seq k n)))%R) as H.
  { induction n as [|n IH]; intros k t Ha Hb; cbn [seq mfold map]; [unfold Rsum; simpl; f_equal; ring|].
    rewrite (vec_get_ok fi k 0) by lia. cbn [obind]. rewrite (vec_get_ok fi (S k) 0) by lia. cbn [obind]. fold (plane_entries dc k).
    assert (forall l t, incl l (plane_entries dc k) -> mfold (fun t j =>
      m <- vec_get model j ;;
      if Rleb m 0 then Ok t else
      ipix <- vec_get (dc_filled dc) j ;;
      d <- vec_get data (k * np + ipix) ;;
      Ok (t + d * ln m)%R) l t = Ok (t + Rsum (map (fun j => datum k j * ln (nth j model 0)) l))%R) as Hl.
    { induction l as [|j l IHl]; intros t0 Hi; cbn [mfold map]; [unfold Rsum; simpl; f_equal; ring|].
      assert (In j (plane_entries dc k)) as Hj by (apply Hi; left; auto). pose proof (entry_lt k j ltac:(lia) Hj). rewrite (vec_get_ok model j 0%R) by lia. cbn [obind].
      pose proof (HP k j ltac:(lia) Hj). destruct (Rleb_spec (nth j model 0%R) 0); [lra|]. rewrite (vec_get_ok fl j 0) by lia. cbn [obind]. rewrite datum_ok by (auto; lia). cbn [obind].
      rewrite IHl by (intros y Hy; apply Hi; right; auto). unfold Rsum. cbn [fold_right]. f_equal. ring. }
    rewrite Hl by (intros y Hy; auto). cbn [obind]. rewrite IH by lia. unfold Rsum. cbn [fold_right]. f_equal. ring. }
  rewrite H by lia. cbn [obind]. rewrite Rplus_0_l. reflexivity.
Qed.
Definition dom_of (model : list R) (k j : nat) : R := if Rltb 0 (nth j model 0%R) then (datum k j / nth j model 0)%R else 0%R.
Lemma dom_pixels model k : length model = length fl -> k < nb -> forall l dom, length dom = length fl -> NoDup l -> incl l (plane_entries dc k) -> exists dom', 
  mfold (fun dom j =>
      ipix <- vec_get (dc_filled dc) j ;;
      m <- vec_get model j ;;
      x <- (if Rltb 0 m then d <- vec_get data (k * np + ipix) ;; Ok (d / m)%R else Ok 0%R) ;;
      vec_set dom j x) l dom = Ok dom' /\ length dom' = length fl /\ (forall j, In j l -> nth j dom' 0%R = dom_of model k j) /\ (forall j, ~ In j l -> nth j dom' 0%R = nth j dom 0%R).
Proof.
  intros HL Hk. induction l as [|j l IH]; intros dom HLd HN Hi; cbn [mfold]; [exists dom; split; auto; split; auto; split; [intros ? []|auto]|].
  assert (In j (plane_entries dc k)) as Hj by (apply Hi; left; auto). pose proof (entry_lt k j Hk Hj) as Hlt. rewrite (vec_get_ok fl j 0) by lia. cbn [obind]. rewrite (vec_get_ok model j 0%R) by lia. cbn [obind].
  assert ((if Rltb 0 (nth j model 0%R) then d <- vec_get data (k * np + nth j fl 0) ;; Ok (d / nth j model 0%R)%R else Ok 0%R) = Ok (dom_of model k j)) as ->.
  { unfold dom_of. destruct (Rltb 0 (nth j model 0%R)); auto. rewrite datum_ok by auto. reflexivity. }
  cbn [obind]. rewrite vec_set_ok by lia. cbn [obind]. inversion HN; subst.
  destruct (IH (upd dom j (dom_of model k j))) as (dom' & E & L & H1' & H2'); [now rewrite upd_length|auto|intros y Hy; apply Hi; right; auto|].
  exists dom'. split; auto. split; auto. split.
  - intros j' [<-|Hin]; auto. rewrite H2' by auto. now rewrite nth_upd_eq by lia.
  - intros j' Hn. rewrite H2' by (intros X; apply Hn; right; auto). apply nth_upd_neq. intros <-. apply Hn; left; auto.
Qed.
Lemma dom_ok model k1 k2 : length model = length fl -> k1 <= k2 <= nb -> exists dom, data_over_model dc data np model k1 k2 = Ok dom /\ length dom = length fl /\
  forall k j, k1 <= k < k2 -> In j (plane_entries dc k) -> nth j dom 0%R = dom_of model k j.
Proof.
  intros HL Hk. unfold data_over_model. destruct DC as (F1 & F2 & F3 & F4 & F5).
  assert (forall n k dom, k + n <= k2 -> length dom = length fl -> exists dom', mfold (fun dom k =>
    j_start <- vec_get (dc_first dc) k ;; j_stop <- vec_get (dc_first dc) (S k) ;;
    mfold (fun dom j =>
      ipix <- vec_get (dc_filled dc) j ;;
      m <- vec_get model j ;;
      x <- (if Rltb 0 m then d <- vec_get data (k * np + ipix) ;; Ok (d / m)%R else Ok 0%R) ;;
      vec_set dom j x) (seq j_start (j_stop - j_start)) dom) (seq k n) dom = Ok dom' /\ length dom' = length fl /\
    (forall j, j < nth k fi 0 -> nth j dom' 0%R = nth j dom 0%R) /\
    forall q j, k <= q < k + n -> In j (plane_entries dc q) -> nth j dom' 0%R = dom_of model q j) as H.
  { induction n as [|n IH]; intros k dom Hb HLd; cbn [seq mfold]; [exists dom; split; auto; split; auto; split; auto; intros; lia|].
    rewrite (vec_get_ok fi k 0) by lia. cbn [obind]. rewrite (vec_get_ok fi (S k) 0) by lia. cbn [obind]. fold (plane_entries dc k).
    destruct (dom_pixels model k HL ltac:(lia) (plane_entries dc k) dom HLd (seq_NoDup _ _) (incl_refl _)) as (d1 & E1 & L1 & A1 & B1). cbn [obind] in E1 |- *. rewrite E1. cbn [obind].
    destruct (IH (S k) d1 ltac:(lia) L1) as (d2 & E2 & L2 & A2 & B2). exists d2. split; auto. split; auto. pose proof (F4 k ltac:(lia)). split.
    - intros j Hj. rewrite A2 by lia. apply B1. unfold plane_entries. rewrite in_seq. lia.
    - intros q j Hq Hin. destruct (Nat.eq_dec q k) as [->|Hne]; [|apply B2; auto; lia]. rewrite A2; [apply A1; auto|]. unfold plane_entries in Hin. apply in_seq in Hin. lia. }
  destruct (H (k2 - k1) k1 (repeat 0%R (length fl)) ltac:(lia) (repeat_length _ _)) as (dom & E & L & _ & B). exists dom. split; auto. split; auto. intros k j Hk' Hj. apply B; auto. lia.
Qed.

(** Derivatives of the counts. *)
Variables (Sp : R -> list R) (dspec : list R) (x0 : R).
Variables (HSp : forall x, length (Sp x) = NT + 1) (Hds : length dspec = NT + 1).
Variable HDer : forall t, t < NT + 1 -> derivable_pt_lim (fun x => nth t (Sp x) 0%R) x0 (nth t dspec 0%R).
Lemma HDer' t : derivable_pt_lim (fun x => nth t (Sp x) 0%R) x0 (nth t dspec 0%R).
Proof.
  destruct (Nat.lt_ge_cases t (NT + 1)) as [H|H]; [apply HDer; auto|]. rewrite (nth_overflow dspec) by lia.
  apply is_derive_Reals. apply (is_derive_ext (fun _ => 0%R)); [intros y; rewrite nth_overflow; auto; rewrite HSp; auto|]. apply is_derive_Reals, derivable_pt_lim_const.
Qed.
Lemma bin_deriv t p : derivable_pt_lim (fun x => bin_counts s (Sp x) t p) x0 (bin_counts s dspec t p).
Proof.
  unfold bin_counts. pose proof (HDer' t) as H1. pose proof (HDer' (S t)) as H2. apply is_derive_Reals in H1, H2. apply is_derive_Reals.
  set (c1 := (nth t (sm_en s) 0 * plane s t p * nth t (sm_ler s) 0 / 2)%R). set (c2 := (nth (S t) (sm_en s) 0 * plane s (S t) p * nth t (sm_ler s) 0 / 2)%R).
  apply (is_derive_ext (fun x => c1 * nth t (Sp x) 0 + c2 * nth (S t) (Sp x) 0)%R); [intros y; unfold c1, c2; simpl; field|].
  replace ((nth t dspec 0 * nth t (sm_en s) 0 * plane s t p + nth (S t) dspec 0 * nth (S t) (sm_en s) 0 * plane s (S t) p) * nth t (sm_ler s) 0 / 2)%R with (plus (scal c1 (nth t dspec 0%R)) (scal c2 (nth (S t) dspec 0%R))) by (unfold plus, scal; simpl; unfold mult; simpl; unfold c1, c2; field).
  apply (is_derive_plus (V := R_NormedModule) (fun x => c1 * nth t (Sp x) 0)%R (fun x => c2 * nth (S t) (Sp x) 0)%R); apply is_derive_scal; auto.
Qed.
Lemma counts_deriv k p : derivable_pt_lim (fun x => counts_at s (Sp x) k p) x0 (counts_at s dspec k p).
Proof.
  unfold counts_at. apply (derive_Rsum (fun tr x => (snd tr * bin_counts s (Sp x) (fst tr) p)%R) (fun tr => (snd tr * bin_counts s dspec (fst tr) p)%R)).
  intros tr _. apply derive_scal, bin_deriv.
Qed.
Lemma wts_deriv t : t < NT -> derivable_pt_lim (fun x => fst (nth t (wts_of (Sp x) (sm_en s) (sm_ler s)) (0%R, 0%R))) x0 (fst (nth t (wts_of dspec (sm_en s) (sm_ler s)) (0%R, 0%R))) /\
  derivable_pt_lim (fun x => snd (nth t (wts_of (Sp x) (sm_en s) (sm_ler s)) (0%R, 0%R))) x0 (snd (nth t (wts_of dspec (sm_en s) (sm_ler s)) (0%R, 0%R))).
Proof.
  intros Ht. rewrite wts_nth by (rewrite (so_ler s OK); auto). cbn [fst snd]. split; apply is_derive_Reals.
  - apply (is_derive_ext (fun x => (nth t (sm_en s) 0 * nth t (sm_ler s) 0 / 2) * nth t (Sp x) 0)%R); [intros y; rewrite wts_nth by (rewrite (so_ler s OK); auto); simpl; field|].
    replace (nth t dspec 0 * nth t (sm_en s) 0 * nth t (sm_ler s) 0 / 2)%R with ((nth t (sm_en s) 0 * nth t (sm_ler s) 0 / 2) * nth t dspec 0)%R by field. apply is_derive_scal. apply is_derive_Reals, HDer'.
  - apply (is_derive_ext (fun x => (nth (S t) (sm_en s) 0 * nth t (sm_ler s) 0 / 2) * nth (S t) (Sp x) 0)%R); [intros y; rewrite wts_nth by (rewrite (so_ler s OK); auto); simpl; field|].
    replace (nth (S t) dspec 0 * nth (S t) (sm_en s) 0 * nth t (sm_ler s) 0 / 2)%R with ((nth (S t) (sm_en s) 0 * nth t (sm_ler s) 0 / 2) * nth (S t) dspec 0)%R by field. apply is_derive_scal. apply is_derive_Reals, HDer'.
Qed.
Lemma weighted_deriv wn k col : window s k + width s <= NT -> derivable_pt_lim (fun x => weighted s (Sp x) wn k col) x0 (weighted s dspec wn k col).
Proof.
  intros Hb. unfold weighted, disp. apply (derive_Rsum (fun i x => (nth i col 0 * (fst (nth i (nth k wn []) (0, 0)) * fst (nth (window s k + i)%nat (wts_of (Sp x) (sm_en s) (sm_ler s)) (0, 0)) + snd (nth i (nth k wn []) (0, 0)) * snd (nth (window s k + i)%nat (wts_of (Sp x) (sm_en s) (sm_ler s)) (0, 0))))%R)
    (fun i => (nth i col 0 * (fst (nth i (nth k wn []) (0, 0)) * fst (nth (window s k + i)%nat (wts_of dspec (sm_en s) (sm_ler s)) (0, 0)) + snd (nth i (nth k wn []) (0, 0)) * snd (nth (window s k + i)%nat (wts_of dspec (sm_en s) (sm_ler s)) (0, 0))))%R)).
  intros i Hi. apply in_seq in Hi. destruct (wts_deriv (window s k + i) ltac:(lia)) as [H1 H2]. apply derive_scal. 
  apply (derivable_pt_lim_plus (fun x => fst (nth i (nth k wn []) (0, 0)) * fst (nth (window s k + i)%nat (wts_of (Sp x) (sm_en s) (sm_ler s)) (0, 0)))%R (fun x => snd (nth i (nth k wn []) (0, 0)) * snd (nth (window s k + i)%nat (wts_of (Sp x) (sm_en s) (sm_ler s)) (0, 0)))%R); apply derive_scal; auto.
Qed.
End S.

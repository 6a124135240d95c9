From Coq Require Import Reals Lra.
From Coquelicot Require Import Coquelicot.
From Verif Require Import Base AccumModel AccumProofs VecModel VecSpec VecProofs PoissonModel PoissonSpec PoissonProofs
  DerivSpec NewtonModel.
Local Open Scope R_scope.

Lemma range_map (v : list R) first n : (first + n <= length v)%nat ->
  skipn first (firstn (first + n) v) = map (fun b => nth b v 0) (seq first n).
Proof.
  revert first v. induction n as [|n IH]; intros first v H.
  - simpl. rewrite Nat.add_0_r. apply skipn_all2. rewrite firstn_length. lia.
  - simpl. rewrite <- IH by lia.
    rewrite !skipn_firstn_comm.
    replace (first + S n - first)%nat with (S n) by lia.
    replace (S first + n - S first)%nat with n by lia.
    destruct (skipn first v) as [|x r] eqn:E.
    + exfalso. apply (f_equal (@length R)) in E. rewrite skipn_length in E. simpl in E. lia.
    + destruct (skipn_cons_nth _ _ _ _ E) as [Hn Hr]. rewrite Hr. simpl.
      now rewrite (nth_error_nth _ _ 0 Hn).
Qed.

Lemma skipn_map_app (v : list R) first n : (first + n <= length v)%nat ->
  skipn first v = map (fun b => nth b v 0) (seq first n) ++ skipn (first + n) v.
Proof.
  intros H. rewrite <- range_map by auto. rewrite <- (firstn_skipn (first + n) v) at 1.
  rewrite skipn_app. f_equal. rewrite firstn_length. replace (first - Nat.min (first + n) (length v))%nat with 0%nat by lia. reflexivity.
Qed.

Lemma add_row_map c (f t : nat -> R) extra : forall bs,
  add_row c (map t bs ++ extra) (map f bs) = Ok (map (fun b => f b + c * t b) bs).
Proof. intros l. induction l as [|b l IH]; simpl; auto. now rewrite IH. Qed.

Lemma sum_rows_map first n : forall ns ts f, Forall (fun t => (first + n <= length t)%nat) ts ->
  sum_rows ns ts first (map f (seq first n)) = Ok (map (fun b => f b + total_model [] ts ns b) (seq first n)).
Proof.
  induction ns as [|c ns IH]; intros ts f H.
  - simpl. f_equal. apply map_ext. intros b. destruct ts, b; simpl; lra.
  - destruct ts as [|t ts]; simpl.
    + f_equal. apply map_ext. intros b. destruct b; simpl; lra.
    + inversion H as [|? ? H1 H2]; subst. rewrite (proj2 (Nat.leb_le first (length t))) by lia.
      rewrite (skipn_map_app t first n H1), add_row_map. simpl. rewrite IH by auto. f_equal.
      apply map_ext. intros b. ring.
Qed.

Section Data.
Variables (data fixed model : list R) (templates : list (list R)) (pr : option prior) (weights : option (list R))
  (first last : nat).
Let N := length data.
Let stop := if (last =? 0)%nat then N else last.
Hypothesis Hfix : length fixed = N.
Hypothesis Hmod : length model = N.
Hypothesis Htmp : Forall (fun t => length t = N) templates.
Hypothesis Hw : match weights with Some w => length w = N | None => True end.
Hypothesis Hr : (first <= stop <= N)%nat.
Let n := (stop - first)%nat.
Let bs := seq first n.
Let npar := length templates.
Hypothesis Hpr : match pr with Some p => length (p_central p) = npar /\ p_dim p = npar | None => True end.

Definition M norms b := total_model fixed templates norms b.

Lemma bs_in b : In b bs <-> (first <= b < stop)%nat.
Proof. unfold bs, n. rewrite in_seq. lia. Qed.

Lemma vrange_map v : length v = N -> vrange v first last = Ok (map (fun b => nth b v 0) bs).
Proof.
  intros H. unfold vrange. rewrite H. fold stop.
  replace (first <=? stop)%nat with true by (symmetry; apply Nat.leb_le; lia).
  replace (stop <=? N)%nat with true by (symmetry; apply Nat.leb_le; lia). simpl. f_equal.
  replace stop with (first + n)%nat by (unfold n; lia). apply range_map. unfold n. lia.
Qed.

Lemma sumModel_ok norms : length norms = npar ->
  sumModel norms templates fixed model first last =
  Ok (firstn first model ++ map (M norms) bs ++ skipn stop model).
Proof.
  intros Hn. unfold sumModel. rewrite Hfix, Hmod, Nat.eqb_refl. rewrite Hn. unfold npar. rewrite Nat.eqb_refl. simpl.
  rewrite (vrange_map fixed Hfix). simpl. unfold bs. rewrite sum_rows_map.
  - simpl. f_equal. f_equal. f_equal. apply map_ext. intros b. unfold M.
    pose proof (total_model_fixed fixed [] b templates norms) as E.
    assert (nth b (@nil R) 0 = 0) as E0 by (destruct b; reflexivity). rewrite E0 in E. lra.
  - eapply Forall_impl; [|exact Htmp]. intros t Ht. rewrite Ht. unfold n. lia.
Qed.

Lemma model_range norms :
  vrange (firstn first model ++ map (M norms) bs ++ skipn stop model) first last = Ok (map (M norms) bs).
Proof.
  assert (length (map (M norms) bs) = n) as L1 by (unfold bs; now rewrite map_length, seq_length).
  assert (length (firstn first model) = first) as L2 by (rewrite firstn_length; lia).
  assert (length (firstn first model ++ map (M norms) bs ++ skipn stop model) = N) as L.
  { rewrite !app_length, L1, L2, skipn_length. unfold n. lia. }
  unfold vrange. rewrite L. fold stop.
  replace (first <=? stop)%nat with true by (symmetry; apply Nat.leb_le; lia).
  replace (stop <=? N)%nat with true by (symmetry; apply Nat.leb_le; lia). simpl. f_equal.
  rewrite skipn_firstn_comm. rewrite <- L2 at 2. rewrite skipn_app, skipn_all, Nat.sub_diag. simpl.
  fold n. rewrite firstn_app, L1, Nat.sub_diag. simpl. rewrite app_nil_r. rewrite <- L1 at 1. apply firstn_all.
Qed.

Definition lsum (f : nat -> R) (l : list nat) : R := Rsum (map f l).
Lemma lsum_cons f x l : lsum f (x :: l) = f x + lsum f l.
Proof. reflexivity. Qed.
Definition W b := match weights with Some w => nth b w 0 | None => 1 end.
Definition D b := nth b data 0.
Definition cval (d w m : R) : R := (if Rltb eps_data (d * w) then d * w * ln m else 0) - m * w.

Lemma pois_loop_map (d m : nat -> R) : forall l a b, (forall x, In x l -> 0 < m x) ->
  pois_loop (map d l) (map m l) a b = Ok (b - a + lsum (fun x => cval (d x) 1 (m x)) l).
Proof.
  induction l as [|x l IH]; intros a b H; simpl.
  - f_equal. unfold lsum. simpl. lra.
  - assert (0 < m x) by (apply H; simpl; auto).
    destruct (Rltb_spec (m x) 0); [lra|]. rewrite lsum_cons. unfold cval at 1. rewrite Rmult_1_r.
    destruct (Rltb_spec eps_data (d x)).
    + destruct (Rleb_spec (m x) 0); [lra|]. rewrite IH by (intros; apply H; simpl; auto). f_equal. lra.
    + rewrite IH by (intros; apply H; simpl; auto). f_equal. lra.
Qed.
Lemma poisw_loop_map (d m w : nat -> R) : forall l a b, (forall x, In x l -> 0 < m x) ->
  poisw_loop (map d l) (map m l) (map w l) a b = Ok (b - a + lsum (fun x => cval (d x) (w x) (m x)) l).
Proof.
  induction l as [|x l IH]; intros a b H; simpl.
  - f_equal. unfold lsum. simpl. lra.
  - assert (0 < m x) by (apply H; simpl; auto).
    destruct (Rltb_spec (m x) 0); [lra|]. rewrite lsum_cons. unfold cval at 1.
    destruct (Rltb_spec eps_data (d x * w x)).
    + destruct (Rleb_spec (m x) 0); [lra|]. rewrite IH by (intros; apply H; simpl; auto). f_equal. lra.
    + rewrite IH by (intros; apply H; simpl; auto). f_equal. lra.
Qed.

Definition prior_val norms : outcome R := match pr with None => Ok 0 | Some p => prior_logLike p norms end.

Lemma LL_ok norms : length norms = npar -> (forall b, In b bs -> 0 < M norms b) ->
  obind (getLogLikelihood data norms templates fixed pr weights model first last) (fun p => Ok (fst p)) =
  obind (prior_val norms) (fun lp => Ok (lsum (fun b => cval (D b) (W b) (M norms b)) bs + lp)).
Proof.
  intros Hn Hp. unfold getLogLikelihood. rewrite sumModel_ok by auto. simpl.
  rewrite vrange_map by reflexivity. simpl. rewrite model_range. simpl. unfold W, prior_val.
  assert (match weights with
          | Some w => obind (vrange w first last) (fun ws => logLikePoissonW (map (fun b => nth b data 0) bs) (map (M norms) bs) ws)
          | None => logLikePoisson (map (fun b => nth b data 0) bs) (map (M norms) bs) end =
          Ok (lsum (fun b => cval (D b) (match weights with Some w => nth b w 0 | None => 1 end) (M norms b)) bs)) as E.
  { destruct weights as [w|].
    - rewrite (vrange_map w Hw). simpl. unfold logLikePoissonW. rewrite !map_length, Nat.eqb_refl. simpl.
      rewrite poisw_loop_map by auto. f_equal. fold D. unfold D. lra.
    - unfold logLikePoisson. rewrite !map_length, Nat.eqb_refl. simpl. rewrite pois_loop_map by auto. f_equal. unfold D. lra. }
  rewrite E. simpl. destruct pr as [p|]; simpl.
  - destruct (prior_logLike p norms); simpl; reflexivity.
  - f_equal. lra.
Qed.

(** gradient and Hessian as sums over bins *)
Definition fd (d m : R) : R := if Rleb d 0 then 1 else 1 - d / m.
Definition dm2 (d m : R) : R := if Rleb d 0 then 0 else d / (m * m).
Lemma fracDiff_map (d m : nat -> R) : forall l, (forall x, In x l -> 0 < m x) ->
  fracDiff (map d l) (map m l) = Ok (map (fun x => fd (d x) (m x)) l).
Proof.
  induction l as [|x l IH]; intros H; simpl; auto.
  rewrite IH by (intros; apply H; simpl; auto). assert (0 < m x) by (apply H; simpl; auto).
  destruct (Rleb_spec (d x) 0); cbn [obind].
  - do 2 f_equal. unfold fd. destruct (Rleb_spec (d x) 0); [reflexivity|lra].
  - destruct (Rleb_spec (m x) 0); [lra|]. cbn [obind]. do 2 f_equal. unfold fd. destruct (Rleb_spec (d x) 0); [lra|reflexivity].
Qed.
Lemma dom2_map (d m : nat -> R) : forall l, (forall x, In x l -> 0 < m x) ->
  data_over_model2 (map d l) (map m l) = Ok (map (fun x => dm2 (d x) (m x)) l).
Proof.
  induction l as [|x l IH]; intros H; simpl; auto.
  rewrite IH by (intros; apply H; simpl; auto). assert (0 < m x) by (apply H; simpl; auto).
  destruct (Rleb_spec (d x) 0); cbn [obind].
  - do 2 f_equal. unfold dm2. destruct (Rleb_spec (d x) 0); [reflexivity|lra].
  - destruct (Rleb_spec (m x) 0); [lra|]. cbn [obind]. do 2 f_equal. unfold dm2. destruct (Rleb_spec (d x) 0); [lra|reflexivity].
Qed.

Lemma map2_map {A} (f : R -> R -> R) (g h : A -> R) l : map2 f (map g l) (map h l) = map (fun x => f (g x) (h x)) l.
Proof. induction l; simpl; auto. now rewrite IHl. Qed.

Lemma ip2_map (f g : nat -> R) l : ip2 (map f l) (map g l) = Ok (lsum (fun x => f x * g x) l).
Proof.
  unfold ip2, innerProduct2. rewrite !map_length, Nat.eqb_refl. simpl.
  rewrite ip2_ok by now rewrite !map_length. simpl. rewrite map2_map, fold_left_Rsum. f_equal. unfold lsum. lra.
Qed.
Lemma ip3_map (f g h : nat -> R) l : ip3 (map f l) (map g l) (map h l) = Ok (lsum (fun x => f x * g x * h x) l).
Proof.
  unfold ip3, innerProduct3. rewrite !map_length, Nat.eqb_refl. simpl.
  rewrite ip3_ok by now rewrite !map_length. simpl. rewrite !map2_map, fold_left_Rsum. f_equal. unfold lsum. lra.
Qed.
Lemma ip4_map (f g h k : nat -> R) l : ip4 (map f l) (map g l) (map h l) (map k l) = Ok (lsum (fun x => f x * g x * h x * k x) l).
Proof.
  unfold ip4, innerProduct4. rewrite !map_length, Nat.eqb_refl. simpl.
  rewrite ip4_ok by now rewrite !map_length. simpl. rewrite !map2_map, fold_left_Rsum. f_equal. unfold lsum. lra.
Qed.

Lemma oseq_map_ok {A B} (f : A -> outcome B) (g : A -> B) l : (forall x, In x l -> f x = Ok (g x)) -> oseq (map f l) = Ok (map g l).
Proof.
  induction l as [|x l IH]; intros H; simpl; auto. rewrite H by (simpl; auto). simpl.
  rewrite IH by (intros; apply H; simpl; auto). reflexivity.
Qed.

Definition trow (t : list R) := map (fun b => nth b t 0) bs.
Definition T i b := nth b (nth i templates []) 0.
Definition gfun norms (t : list R) := lsum (fun b => W b * fd (D b) (M norms b) * nth b t 0) bs.
Definition hfun norms (ti tj : list R) := lsum (fun b => W b * dm2 (D b) (M norms b) * nth b ti 0 * nth b tj 0) bs.
Fixpoint hrows norms (ts : list (list R)) : list (list R) :=
  match ts with [] => [] | t :: ts' => map (hfun norms t) (t :: ts') :: hrows norms ts' end.

Lemma lsum_ext f g l : (forall x, In x l -> f x = g x) -> lsum f l = lsum g l.
Proof. intros H. unfold lsum. f_equal. apply map_ext_in. auto. Qed.

Definition prior_grad norms : outcome (list R) := match pr with None => Ok (repeat 0 npar) | Some p => prior_gradient p norms end.
Definition gh_result norms : list R * list (list R) :=
  (map (gfun norms) templates, hrows norms templates).

Lemma GH_ok norms : length norms = npar -> (forall b, In b bs -> 0 < M norms b) ->
  getGradientAndHessian data norms templates fixed pr weights model first last =
  match pr with
  | None => Ok (gh_result norms)
  | Some p => obind (prior_gradient p norms) (fun gp => obind (vadd (fst (gh_result norms)) gp) (fun g' =>
              Ok (g', add_hess (p_upper p) (snd (gh_result norms)))))
  end.
Proof.
  intros Hn Hp. unfold getGradientAndHessian. cbv zeta. fold N. fold stop.
  rewrite sumModel_ok by auto. cbn [obind].
  assert (forall v, length v = N -> (if ((first <=? stop) && (stop <=? length v))%nat then Ok (skipn first (firstn stop v)) else UB) = Ok (trow v)) as RV.
  { intros v Hv. unfold trow. rewrite <- (vrange_map v Hv). unfold vrange. rewrite Hv. reflexivity. }
  pose proof (RV data eq_refl) as RD. fold N in RD. rewrite RD. cbn [obind].
  assert (length (firstn first model ++ map (M norms) bs ++ skipn stop model) = N) as L.
  { rewrite !app_length, firstn_length, map_length, skipn_length. unfold bs. rewrite seq_length. unfold n. lia. }
  assert (trow (firstn first model ++ map (M norms) bs ++ skipn stop model) = map (M norms) bs) as LM.
  { pose proof (model_range norms) as E. rewrite (vrange_map _ L) in E. injection E. auto. }
  rewrite (RV _ L), LM. cbn [obind]. unfold trow at 1 2.
  rewrite fracDiff_map, dom2_map by auto. cbn [obind].
  rewrite (oseq_map_ok _ trow) by (intros t Ht; apply RV; exact (proj1 (Forall_forall _ _) Htmp t Ht)).
  cbn [obind].
  assert (match weights with Some w => obind (if ((first <=? stop) && (stop <=? length w))%nat then Ok (skipn first (firstn stop w)) else UB) (fun ws => Ok (Some ws)) | None => Ok None end
          = Ok (match weights with Some w => Some (trow w) | None => None end)) as EW.
  { destruct weights as [w|]; auto. rewrite (RV w Hw). reflexivity. }
  rewrite EW. cbn [obind].
  assert (forall t, grad_elem (match weights with Some w => Some (trow w) | None => None end)
            (map (fun x => fd (nth x data 0) (M norms x)) bs) (trow t) = Ok (gfun norms t)) as EG.
  { intros t. unfold grad_elem, gfun, W, trow. destruct weights as [w|]; rewrite ?ip3_map, ?ip2_map; f_equal;
      apply lsum_ext; intros; unfold D; ring. }
  rewrite map_map.
  rewrite (oseq_map_ok _ (gfun norms)) by auto. cbn [obind].
  assert (forall ti tj, hess_elem (match weights with Some w => Some (trow w) | None => None end)
            (map (fun x => dm2 (nth x data 0) (M norms x)) bs) (trow ti) (trow tj) = Ok (hfun norms ti tj)) as EH.
  { intros ti tj. unfold hess_elem, hfun, W, trow. destruct weights as [w|]; rewrite ?ip4_map, ?ip3_map; f_equal;
      apply lsum_ext; intros; unfold D; ring. }
  assert (forall ts, hess_rows (match weights with Some w => Some (trow w) | None => None end)
            (map (fun x => dm2 (nth x data 0) (M norms x)) bs) (map trow ts) = Ok (hrows norms ts)) as ER.
  { assert (forall w w2 t ts, hess_rows w w2 (map trow (t :: ts)) =
       obind (oseq (map (fun x => hess_elem w w2 (trow t) (trow x)) (t :: ts))) (fun row =>
       obind (hess_rows w w2 (map trow ts)) (fun rows => Ok (row :: rows)))) as HC.
    { intros w w2 t ts. rewrite <- (map_map trow (hess_elem w w2 (trow t))). reflexivity. }
    induction ts as [|t ts IH]; [reflexivity|]. rewrite HC.
    rewrite (oseq_map_ok _ (hfun norms t)) by auto. cbn [obind]. rewrite IH. reflexivity. }
  rewrite ER. cbn [obind]. destruct pr as [p|]; [|reflexivity].
  destruct Hpr as [_ Hd]. rewrite map_length. fold npar. rewrite Hd, Nat.eqb_refl. reflexivity.
Qed.

(** ** dependence on one normalisation *)
Lemma total_model_upd b : forall ts ns i v v0, length ns = length ts -> nth_error ns i = Some v0 ->
  total_model fixed ts (upd ns i v) b = total_model fixed ts ns b + (v - v0) * nth b (nth i ts []) 0.
Proof.
  induction ts as [|t ts IH]; intros ns i v v0 H H0.
  - destruct ns; [destruct i; discriminate|discriminate].
  - destruct ns as [|c ns]; [discriminate|]. destruct i as [|i]; simpl in *.
    + injection H0 as ->. lra.
    + rewrite (IH ns i v v0) by auto. lra.
Qed.

Lemma M_upd norms i v v0 b : length norms = npar -> nth_error norms i = Some v0 ->
  M (upd norms i v) b = M norms b + (v - v0) * T i b.
Proof. intros. apply total_model_upd; auto. Qed.

Lemma near_pos (m t : nat -> R) : forall l, (forall b, In b l -> 0 < m b) ->
  exists delta, 0 < delta /\ forall x, Rabs x < delta -> forall b, In b l -> 0 < m b + x * t b.
Proof.
  induction l as [|b l IH]; intros H.
  - exists 1. split; [lra|]. intros x _ b [].
  - destruct IH as (d1 & P1 & Q1); [intros; apply H; simpl; auto|].
    assert (0 < m b) as Hb by (apply H; simpl; auto).
    assert (0 < Rabs (t b) + 1) as Ht by (pose proof (Rabs_pos (t b)); lra).
    exists (Rmin d1 (m b / (Rabs (t b) + 1))). split.
    + apply Rmin_glb_lt; auto. apply Rdiv_lt_0_compat; auto.
    + intros x Hx c [->|Hc].
      * assert (Rabs x * (Rabs (t c) + 1) < m c) as Hlt.
        { assert (Rabs x < m c / (Rabs (t c) + 1)) as Hx2 by (eapply Rlt_le_trans; [exact Hx|apply Rmin_r]).
          apply (Rmult_lt_compat_r _ _ _ Ht) in Hx2. unfold Rdiv in Hx2. rewrite Rmult_assoc, Rinv_l in Hx2 by lra. lra. }
        assert (Rabs (x * t c) <= Rabs x * (Rabs (t c) + 1)).
        { rewrite Rabs_mult. pose proof (Rabs_pos x). nra. }
        assert (- Rabs (x * t c) <= x * t c) by (unfold Rabs; destruct (Rcase_abs (x * t c)); lra). lra.
      * apply Q1; auto. eapply Rlt_le_trans; [exact Hx|apply Rmin_l].
Qed.

Lemma derive_lsum (f : nat -> R -> R) (df : nat -> R) x : forall l,
  (forall b, In b l -> derivable_pt_lim (f b) x (df b)) ->
  derivable_pt_lim (fun v => lsum (fun b => f b v) l) x (lsum df l).
Proof.
  induction l as [|b l IH]; intros H.
  - unfold lsum. simpl. apply derivable_pt_lim_const.
  - unfold lsum. simpl. apply (derivable_pt_lim_plus (f b) (fun v => lsum (fun b => f b v) l)).
    + apply H; simpl; auto.
    + apply IH. intros; apply H; simpl; auto.
Qed.

Lemma derive_ext f g x d : (forall v, f v = g v) -> derivable_pt_lim f x d -> derivable_pt_lim g x d.
Proof. intros E H eps He. destruct (H eps He) as [a Ha]. exists a. intros h. rewrite <- !E. apply Ha. Qed.

Lemma derive_affine a t v0 x : derivable_pt_lim (fun v => a + (v - v0) * t) x t.
Proof. apply is_derive_Reals. auto_derive; auto. ring. Qed.

Lemma derive_ln_affine a t v0 : 0 < a -> derivable_pt_lim (fun v => ln (a + (v - v0) * t)) v0 (t / a).
Proof. intros Ha. apply is_derive_Reals. auto_derive; [lra|]. field. lra. Qed.

Lemma derive_inv_affine a t v0 : 0 < a -> derivable_pt_lim (fun v => / (a + (v - v0) * t)) v0 (- t / (a * a)).
Proof. intros Ha. apply is_derive_Reals. auto_derive; [lra|]. field. lra. Qed.

(** A bin whose logarithmic term is present in the likelihood exactly when it is
    present in the gradient. *)
Definition clearP (d w : R) : Prop := (d <= 0 /\ ~ has_data (w * d)) \/ (0 < d /\ has_data (w * d)) \/ w = 0.

Lemma derive_cval d w a t v0 : 0 < a -> clearP d w ->
  derivable_pt_lim (fun v => - cval d w (a + (v - v0) * t)) v0 (w * fd d a * t).
Proof.
  intros Ha Hc. unfold cval.
  assert (derivable_pt_lim (fun v => (a + (v - v0) * t) * w) v0 (w * t)) as Hm.
  { replace (w * t) with (t * w + (a + (v0 - v0) * t) * 0) by ring.
    apply (derivable_pt_lim_mult (fun v => a + (v - v0) * t) (fun _ => w)); [apply derive_affine|apply derivable_pt_lim_const]. }
  destruct (Rltb_spec eps_data (d * w)) as [Hb|Hb].
  - assert (0 < d \/ w = 0) as Hd.
    { destruct Hc as [[H1 H2]|[[H1 H2]|H]]; auto. exfalso. apply H2. unfold has_data, eps_data in *. lra. }
    assert (w <> 0) as Hw0 by (intros E; rewrite E, Rmult_0_r in Hb; pose proof eps_data_pos; lra).
    destruct Hd as [Hd|Hd]; [|lra].
    unfold fd. destruct (Rleb_spec d 0); [lra|].
    apply (derive_ext (fun v => (a + (v - v0) * t) * w - d * w * ln (a + (v - v0) * t))); [intros; ring|].
    replace (w * (1 - d / a) * t) with (w * t - (0 * ln (a + (v0 - v0) * t) + d * w * (t / a))) by (field; lra).
    apply (derivable_pt_lim_minus (fun v => (a + (v - v0) * t) * w) (fun v => d * w * ln (a + (v - v0) * t))); auto.
    apply (derivable_pt_lim_mult (fun _ => d * w) (fun v => ln (a + (v - v0) * t))); [apply derivable_pt_lim_const|].
    now apply derive_ln_affine.
  - apply (derive_ext (fun v => (a + (v - v0) * t) * w)); [intros; ring|].
    replace (w * fd d a * t) with (w * t); auto.
    unfold fd. destruct (Rleb_spec d 0); [ring|].
    destruct Hc as [[H1 H2]|[[H1 H2]|H]]; [lra| |subst; ring].
    unfold has_data, eps_data in *. lra.
Qed.

Lemma derive_fd d a t v0 : 0 < a -> derivable_pt_lim (fun v => fd d (a + (v - v0) * t)) v0 (dm2 d a * t).
Proof.
  intros Ha. unfold fd, dm2. destruct (Rleb_spec d 0).
  - rewrite Rmult_0_l. apply derivable_pt_lim_const.
  - replace (d / (a * a) * t) with (0 - (0 * / (a + (v0 - v0) * t) + d * (- t / (a * a)))) by (field; lra).
    apply (derivable_pt_lim_minus (fun _ => 1) (fun v => d / (a + (v - v0) * t))); [apply derivable_pt_lim_const|].
    apply (derivable_pt_lim_mult (fun _ => d) (fun v => / (a + (v - v0) * t))); [apply derivable_pt_lim_const|].
    now apply derive_inv_affine.
Qed.

(** ** the prior *)
Lemma vsub_ok : forall a b, length a = length b -> vsub a b = Ok (map2 Rminus a b).
Proof. induction a as [|x a IH]; intros [|y b] H; simpl in *; try discriminate; auto. now rewrite IH by lia. Qed.
Lemma vadd_ok : forall a b, length a = length b -> vadd a b = Ok (map2 Rplus a b).
Proof. induction a as [|x a IH]; intros [|y b] H; simpl in *; try discriminate; auto. now rewrite IH by lia. Qed.

Lemma big_ext f g m : (forall i, (i < m)%nat -> f i = g i) -> big f m = big g m.
Proof. induction m as [|m IH]; intros H; simpl; auto. rewrite IH, (H m) by (auto; lia). reflexivity. Qed.
Lemma big_plus f g m : big (fun i => f i + g i) m = big f m + big g m.
Proof. induction m as [|m IH]; simpl; [lra|]. rewrite IH. lra. Qed.
Lemma big_scal c f m : big (fun i => c * f i) m = c * big f m.
Proof. induction m as [|m IH]; simpl; [lra|]. rewrite IH. lra. Qed.
Lemma big_delta f i m : (i < m)%nat -> big (fun j => if (j =? i)%nat then f j else 0) m = f i.
Proof.
  induction m as [|m IH]; intros H; [lia|]. simpl. destruct (Nat.eqb_spec m i) as [->|Hne].
  - rewrite (big_ext _ (fun _ => 0)).
    + assert (big (fun _ => 0) i = 0) as -> by (clear; induction i; simpl; lra). lra.
    + intros j Hj. destruct (Nat.eqb_spec j i); [lia|reflexivity].
  - rewrite IH by lia. lra.
Qed.
Lemma sym_comm u i j : sym u i j = sym u j i.
Proof.
  unfold sym. destruct (Nat.leb_spec i j), (Nat.leb_spec j i); auto.
  - replace i with j by lia. reflexivity.
  - lia.
Qed.

Lemma nth_map2_minus : forall a b k, length a = length b -> nth k (map2 Rminus a b) 0 = nth k a 0 - nth k b 0.
Proof. intros. apply nth_map2; auto. lra. Qed.

Lemma nth_map_seq {A} (f : nat -> A) m k d : (k < m)%nat -> nth k (map f (seq 0 m)) d = f k.
Proof.
  intros H. rewrite (nth_indep _ d (f 0%nat)) by (rewrite map_length, seq_length; auto). rewrite map_nth, seq_nth by auto. reflexivity.
Qed.

Section Prior.
Variables (u : nat -> nat -> R) (c : list R).
Let Q (d : nat -> R) := big (fun i => big (fun j => d i * sym u i j * d j) npar) npar.
Let G (d : nat -> R) i := big (fun j => sym u i j * d j) npar.
Lemma Q_shift d i x : (i < npar)%nat ->
  Q (fun k => d k + (if (k =? i)%nat then x else 0)) = Q d + 2 * x * G d i + x * x * sym u i i.
Proof.
  intros Hi. unfold Q.
  rewrite (big_ext _ (fun k => big (fun j => d k * sym u k j * d j) npar +
      (d k * sym u k i * x + (if (k =? i)%nat then x * (G d k + sym u k i * x) else 0)))).
  2:{ intros k Hk.
      rewrite (big_ext _ (fun j => d k * sym u k j * d j + ((if (j =? i)%nat then d k * sym u k j * x else 0) +
         (if (k =? i)%nat then x else 0) * (sym u k j * d j + (if (j =? i)%nat then sym u k j * x else 0))))).
      2:{ intros j Hj. destruct (j =? i)%nat, (k =? i)%nat; ring. }
      rewrite !big_plus, big_scal, big_plus. rewrite (big_delta (fun j => d k * sym u k j * x)), (big_delta (fun j => sym u k j * x)) by auto.
      unfold G. destruct (k =? i)%nat; ring. }
  rewrite !big_plus. rewrite (big_delta (fun k => x * (G d k + sym u k i * x))) by auto.
  rewrite (big_ext (fun k => d k * sym u k i * x) (fun k => x * (sym u i k * d k))).
  2:{ intros k Hk. rewrite (sym_comm u k i). ring. }
  rewrite big_scal. unfold G. ring.
Qed.
End Prior.

Lemma nth_upd_cases norms i v k v0 : nth_error norms i = Some v0 ->
  nth k (upd norms i v) 0 = nth k norms 0 + (if (k =? i)%nat then v - v0 else 0).
Proof.
  intros H. assert (i < length norms)%nat by (apply nth_error_Some; congruence).
  destruct (Nat.eqb_spec k i) as [->|Hne].
  - rewrite nth_upd_eq by auto. rewrite (nth_error_nth _ _ 0 H). lra.
  - rewrite nth_upd_neq by auto. lra.
Qed.

Definition pval norms : R := match prior_val norms with Ok v => v | _ => 0 end.
Definition pgrad norms i : R := match prior_grad norms with Ok g => nth i g 0 | _ => 0 end.
Definition phess i j : R := match pr with None => 0 | Some p => sym (p_upper p) i j end.

Lemma pval_ok norms : length norms = npar -> prior_val norms = Ok (pval norms).
Proof.
  intros Hn. unfold pval, prior_val. destruct pr as [p|]; auto. destruct Hpr as [H1 H2].
  unfold prior_logLike. rewrite vsub_ok by congruence. cbn [obind]. rewrite map2_length, H2, Hn, Nat.eqb_refl by congruence. reflexivity.
Qed.
Lemma pgrad_ok norms : length norms = npar -> exists g, prior_grad norms = Ok g /\ length g = npar /\
  forall i, (i < npar)%nat -> nth i g 0 = pgrad norms i.
Proof.
  intros Hn. unfold pgrad, prior_grad. destruct pr as [p|].
  - destruct Hpr as [H1 H2].
    unfold prior_gradient. rewrite vsub_ok by congruence. cbn [obind]. rewrite map2_length, H2, Hn, Nat.eqb_refl by congruence.
    cbn [negb]. eexists. split; [reflexivity|]. rewrite map_length, seq_length. auto.
  - eexists. split; [reflexivity|]. rewrite repeat_length. auto.
Qed.

Lemma pval_deriv norms i v0 : length norms = npar -> nth_error norms i = Some v0 ->
  derivable_pt_lim (fun v => - pval (upd norms i v)) v0 (pgrad norms i).
Proof.
  intros Hn Hi. assert (i < npar)%nat as Hl by (rewrite <- Hn; apply nth_error_Some; congruence).
  unfold pval, pgrad, prior_val, prior_grad. destruct pr as [p|].
  2:{ apply (derive_ext (fun _ => 0)); [intros; lra|]. rewrite nth_repeat. apply derivable_pt_lim_const. }
  destruct Hpr as [H1 H2]. unfold prior_logLike, prior_gradient.
  rewrite vsub_ok by congruence. cbn [obind]. rewrite map2_length, H2, Hn, Nat.eqb_refl by congruence. cbn [negb].
  set (d := fun k => nth k norms 0 - nth k (p_central p) 0).
  set (u := p_upper p).
  rewrite nth_map_seq by auto.
  rewrite (big_ext _ (fun j => sym u i j * d j)) by (intros; rewrite nth_map2_minus by congruence; reflexivity).
  apply (derive_ext (fun v => 1 / 2 * big (fun i0 => big (fun j => d i0 * sym u i0 j * d j) npar) npar +
     ((v - v0) * big (fun j => sym u i j * d j) npar + (v - v0) * ((v - v0) * (sym u i i * (1 / 2)))))).
  { intros v. rewrite vsub_ok by (rewrite upd_length; congruence). cbn [obind].
    rewrite map2_length, upd_length, Hn, Nat.eqb_refl by (rewrite upd_length; congruence). cbn [negb].
    pose proof (Q_shift u d i (v - v0) Hl) as E. cbv zeta beta in E.
    rewrite (big_ext (fun i0 => big (fun j => nth i0 (map2 Rminus (upd norms i v) (p_central p)) 0 * sym u i0 j * nth j (map2 Rminus (upd norms i v) (p_central p)) 0) npar)
      (fun i0 => big (fun j => (d i0 + (if (i0 =? i)%nat then v - v0 else 0)) * sym u i0 j * (d j + (if (j =? i)%nat then v - v0 else 0))) npar)).
    - rewrite E. field.
    - intros k Hk. apply big_ext. intros j Hj.
      rewrite !nth_map2_minus by (rewrite upd_length; congruence).
      rewrite !(nth_upd_cases norms i v _ v0 Hi). unfold d. ring. }
  set (g := big (fun j => sym u i j * d j) npar). set (q := big _ npar). set (h := sym u i i * (1/2)).
  clearbody g q h. apply is_derive_Reals. auto_derive; auto. ring.
Qed.

Lemma pgrad_deriv norms i j v0 : length norms = npar -> nth_error norms i = Some v0 -> (j < npar)%nat ->
  derivable_pt_lim (fun v => pgrad (upd norms i v) j) v0 (phess i j).
Proof.
  intros Hn Hi Hj. assert (i < npar)%nat as Hl by (rewrite <- Hn; apply nth_error_Some; congruence).
  unfold pgrad, prior_grad, phess. destruct pr as [p|].
  2:{ apply (derive_ext (fun _ => 0)); [intros; rewrite nth_repeat; reflexivity|]. apply derivable_pt_lim_const. }
  destruct Hpr as [H1 H2]. set (u := p_upper p).
  apply (derive_ext (fun v => big (fun k => sym u j k * (nth k norms 0 - nth k (p_central p) 0)) npar + (v - v0) * sym u i j)).
  2: apply derive_affine.
  intros v. unfold prior_gradient. rewrite vsub_ok by (rewrite upd_length; congruence). cbn [obind].
  rewrite map2_length, upd_length, H2, Hn, Nat.eqb_refl by (rewrite upd_length; congruence). cbn [negb].
  fold u.
  rewrite nth_map_seq by auto.
  rewrite (big_ext (fun k => sym u j k * nth k (map2 Rminus (upd norms i v) (p_central p)) 0)
    (fun k => sym u j k * (nth k norms 0 - nth k (p_central p) 0) + (if (k =? i)%nat then sym u j k * (v - v0) else 0))).
  2:{ intros k Hk. rewrite nth_map2_minus by (rewrite upd_length; congruence). rewrite (nth_upd_cases norms i v k v0 Hi).
      destruct (k =? i)%nat; ring. }
  rewrite big_plus, (big_delta (fun k => sym u j k * (v - v0))) by auto. rewrite (sym_comm u j i). ring.
Qed.

(** ** main lemmas *)
Lemma gradient_value norms : length norms = npar -> (forall b, In b bs -> 0 < M norms b) ->
  exists g h, getGradientAndHessian data norms templates fixed pr weights model first last = Ok (g, h) /\
    length g = npar /\ (forall i, (i < npar)%nat -> nth i g 0 = gfun norms (nth i templates []) + pgrad norms i) /\
    (forall i j, (i <= j < npar)%nat -> nth (j - i) (nth i h []) 0 =
         hfun norms (nth i templates []) (nth j templates []) + phess i j).
Proof.
  intros Hn Hp. rewrite (GH_ok norms Hn Hp).
  destruct (pgrad_ok norms Hn) as (gp & E1 & E2 & E3).
  assert (forall i, (i < npar)%nat -> nth i (map (gfun norms) templates) 0 = gfun norms (nth i templates [])) as GN.
  { intros i Hi. rewrite (nth_indep _ 0 (gfun norms [])) by (rewrite map_length; auto). apply map_nth. }
  assert (forall ts i j, (i <= j < length ts)%nat -> nth (j - i) (nth i (hrows norms ts) []) 0 = hfun norms (nth i ts []) (nth j ts [])) as HN.
  { induction ts as [|t ts IH]; intros i j Hij; [simpl in Hij; lia|]. destruct i as [|i].
    - cbn [hrows nth]. rewrite Nat.sub_0_r. rewrite (nth_indep _ 0 (hfun norms t [])) by (rewrite map_length; lia).
      rewrite map_nth. reflexivity.
    - destruct j as [|j]; [lia|]. cbn [hrows nth]. rewrite Nat.sub_succ. apply IH. simpl in Hij. lia. }
  assert (forall ts, length (hrows norms ts) = length ts) as HL.
  { induction ts; [reflexivity|]. cbn [hrows length]. now rewrite IHts. }
  assert (forall ts i, (i < length ts)%nat -> length (nth i (hrows norms ts) []) = (length ts - i)%nat) as HR.
  { induction ts as [|t ts IH]; intros i Hi; [simpl in Hi; lia|]. destruct i; cbn [hrows nth].
    - rewrite map_length. lia.
    - simpl. apply IH. simpl in Hi. lia. }
  unfold prior_grad in E1. unfold phess. destruct pr as [p|].
  - rewrite E1. cbn [obind gh_result fst snd]. rewrite vadd_ok by (rewrite map_length; fold npar; auto). cbn [obind].
    eexists _, _. split; [reflexivity|].
    split; [rewrite map2_length; rewrite map_length; fold npar; auto|].
    split.
    + intros i Hi. rewrite nth_map2; [|rewrite map_length; fold npar; auto|lra]. rewrite GN, E3 by auto. reflexivity.
    + intros i j Hij. unfold add_hess.
      set (ff := fun i0 => map _ (seq 0 (length (nth i0 (hrows norms templates) [])))).
      assert (forall k, (k < npar)%nat -> nth k (map ff (seq 0 (length (hrows norms templates)))) [] = ff k) as EF.
      { intros k Hk. apply nth_map_seq. rewrite HL; auto. }
      rewrite EF by lia. unfold ff.
      set (gg := fun k => nth k (nth i (hrows norms templates) []) 0 + sym (p_upper p) i (i + k)).
      assert (j - i < length (nth i (hrows norms templates) []))%nat as HJ.
      { rewrite HR; unfold npar in *; lia. }
      rewrite (nth_map_seq gg) by auto. unfold gg. rewrite HN by (unfold npar in *; lia).
      replace (i + (j - i))%nat with j by lia. reflexivity.
  - eexists _, _. split; [reflexivity|]. split; [rewrite map_length; reflexivity|].
    injection E1 as <-. split.
    + intros i Hi. rewrite GN, <- E3 by auto. rewrite nth_repeat. lra.
    + intros i j Hij. rewrite HN by auto. lra.
Qed.

Lemma near norms i v0 : length norms = npar -> (forall b, In b bs -> 0 < M norms b) -> nth_error norms i = Some v0 ->
  exists delta, 0 < delta /\ forall v, Rabs (v - v0) < delta -> forall b, In b bs -> 0 < M (upd norms i v) b.
Proof.
  intros Hn Hp Hi. destruct (near_pos (M norms) (T i) bs Hp) as (delta & Hd & HD). exists delta. split; auto.
  intros v Hv b Hb. rewrite (M_upd norms i v v0) by auto. apply HD; auto.
Qed.

Lemma LL_partial norms i : length norms = npar -> (i < npar)%nat -> (forall b, In b bs -> 0 < M norms b) ->
  (forall b, In b bs -> clearP (D b) (W b)) ->
  partial_at (fun nn => option_map (fun p => - fst p)
     (to_option (getLogLikelihood data nn templates fixed pr weights model first last)))
     norms i (gfun norms (nth i templates []) + pgrad norms i).
Proof.
  intros Hn Hi Hp Hc.
  destruct (nth_error norms i) as [v0|] eqn:E0; [|apply nth_error_None in E0; lia].
  destruct (near norms i v0 Hn Hp E0) as (delta & Hd & HD).
  exists v0, delta, (fun v => lsum (fun b => - cval (D b) (W b) (M norms b + (v - v0) * T i b)) bs + - pval (upd norms i v)).
  split; [auto|]. split; auto. split.
  - intros v Hv.
    pose proof (LL_ok (upd norms i v) ltac:(rewrite upd_length; auto) (HD v Hv)) as E.
    rewrite pval_ok in E by (rewrite upd_length; auto). cbn [obind] in E.
    destruct (getLogLikelihood _ _ _ _ _ _ _ _ _) as [[ll mm]| |]; simpl in *; try discriminate.
    injection E as ->. f_equal. rewrite Ropp_plus_distr. f_equal.
    rewrite (lsum_ext (fun b => cval (D b) (W b) (M (upd norms i v) b)) (fun b => cval (D b) (W b) (M norms b + (v - v0) * T i b))).
    + clear. induction bs; unfold lsum in *; simpl; lra.
    + intros b _. now rewrite (M_upd norms i v v0).
  - apply (derivable_pt_lim_plus (fun v => lsum (fun b => - cval (D b) (W b) (M norms b + (v - v0) * T i b)) bs) (fun v => - pval (upd norms i v))).
    + unfold gfun. apply derive_lsum. intros b Hb. apply derive_cval; auto.
    + now apply pval_deriv.
Qed.

Lemma GH_partial norms i j : length norms = npar -> (i < npar)%nat -> (j < npar)%nat -> (forall b, In b bs -> 0 < M norms b) ->
  partial_at (fun nn => match getGradientAndHessian data nn templates fixed pr weights model first last with
                        | Ok (g, _) => nth_error g j | _ => None end)
     norms i (hfun norms (nth i templates []) (nth j templates []) + phess i j).
Proof.
  intros Hn Hi Hj Hp.
  destruct (nth_error norms i) as [v0|] eqn:E0; [|apply nth_error_None in E0; lia].
  destruct (near norms i v0 Hn Hp E0) as (delta & Hd & HD).
  exists v0, delta, (fun v => lsum (fun b => W b * T j b * fd (D b) (M norms b + (v - v0) * T i b)) bs + pgrad (upd norms i v) j).
  split; [auto|]. split; auto. split.
  - intros v Hv.
    destruct (gradient_value (upd norms i v) ltac:(rewrite upd_length; auto) (HD v Hv)) as (g & h & E & El & Eg & _).
    rewrite E. rewrite (nth_error_nth' g 0) by lia. f_equal. rewrite Eg by auto. f_equal. unfold gfun. apply lsum_ext.
    intros b _. rewrite (M_upd norms i v v0) by auto. unfold T. ring.
  - apply (derivable_pt_lim_plus (fun v => lsum (fun b => W b * T j b * fd (D b) (M norms b + (v - v0) * T i b)) bs) (fun v => pgrad (upd norms i v) j)).
    + unfold hfun. rewrite (lsum_ext _ (fun b => 0 * fd (D b) (M norms b + (v0 - v0) * T i b) + W b * T j b * (dm2 (D b) (M norms b) * T i b))).
      2:{ intros b _. unfold T. ring. }
      apply derive_lsum. intros b Hb.
      apply (derivable_pt_lim_mult (fun _ => W b * T j b) (fun v => fd (D b) (M norms b + (v - v0) * T i b))).
      * apply derivable_pt_lim_const.
      * apply derive_fd. auto.
    + now apply pgrad_deriv.
Qed.
End Data.

From Coq Require Import Reals Lra Permutation.
From Verif Require Import Base AccumModel AccumSpec.

Lemma kahan_correct {T} (zero : T) (add sub : T -> T -> T) :
  (forall a, sub a zero = a) -> (forall a b, sub (sub (add a b) a) b = zero) ->
  forall os s, kahan_run zero add sub (mk_kahan s zero) os = totals_spec zero add s os.
Proof.
  intros H1 H2. induction os as [|[v|] os IH]; intros s; simpl; auto.
  - unfold kahan_add; simpl. rewrite H1, H2. apply IH.
  - unfold kahan_init. now rewrite IH.
Qed.

Local Open Scope R_scope.

Definition Rsum (l : list R) : R := fold_right Rplus 0 l.

Lemma fold_left_Rsum l a : fold_left Rplus l a = a + Rsum l.
Proof.
  revert a; induction l as [|x l IH]; intros a; simpl; [lra|]. rewrite IH. lra.
Qed.

Lemma Rsum_app l1 l2 : Rsum (l1 ++ l2) = Rsum l1 + Rsum l2.
Proof. induction l1 as [|x l1 IH]; simpl; [lra|]. rewrite IH. lra. Qed.

Lemma Rsum_perm l1 l2 : Permutation l1 l2 -> Rsum l1 = Rsum l2.
Proof. induction 1; simpl; lra. Qed.

Lemma insert_perm x l : Permutation (insert_sorted x l) (x :: l).
Proof.
  induction l as [|y l IH]; simpl; auto. destruct (Rltb x y); auto.
  rewrite IH. apply perm_swap.
Qed.

Lemma sort_perm l : Permutation (sort l) l.
Proof.
  induction l as [|x l IH]; simpl; auto. rewrite insert_perm. now constructor.
Qed.

Definition sbn_val (b : sbn) : R := Rsum (sb_chunks b).
Definition sbn_ok (b : sbn) : Prop := sb_chunks b <> [].

Lemma sbn_add_spec b v : sbn_ok b ->
  exists b', sbn_add b v = Ok b' /\ sbn_val b' = sbn_val b + v /\ sbn_ok b'.
Proof.
  unfold sbn_ok, sbn_val, sbn_add. intros H.
  destruct (rev (sb_chunks b)) as [|c r] eqn:E.
  - exfalso. apply H. rewrite <- (rev_involutive (sb_chunks b)), E. auto.
  - assert (Hc : sb_chunks b = rev r ++ [c]).
    { rewrite <- (rev_involutive (sb_chunks b)), E. auto. }
    destruct (_ <=? _)%nat; eexists; (split; [reflexivity|]); simpl; rewrite Hc, !Rsum_app; simpl;
      (split; [lra|]); destruct (rev r); discriminate.
Qed.

Lemma Rltb_spec a b : Bool.reflect (a < b) (Rltb a b).
Proof. unfold Rltb. destruct (Rlt_dec a b); constructor; auto. Qed.
Lemma Rleb_spec a b : Bool.reflect (a <= b) (Rleb a b).
Proof. unfold Rleb. destruct (Rle_dec a b); constructor; auto. Qed.
Lemma Reqb_spec a b : Bool.reflect (a = b) (Reqb a b).
Proof. unfold Reqb. destruct (Req_EM_T a b); constructor; auto. Qed.

Lemma trunc_lt r (n : nat) : 0 <= r -> r < INR n -> (trunc_nat r < n)%nat.
Proof.
  intros H0 H. unfold trunc_nat. destruct (archimed r) as [A B].
  assert (C : IZR (up r - 1) < IZR (Z.of_nat n)).
  { rewrite minus_IZR, <- INR_IZR_INZ. lra. }
  apply lt_IZR in C.
  assert (D : (0 <= up r - 1)%Z).
  { assert (IZR 0 < IZR (up r)) by lra. apply lt_IZR in H1. lia. }
  lia.
Qed.

Lemma indx_in_range s xmin xmax xx :
  length (a_partial s) = npts -> 0 < xmin -> xmin <= xmax ->
  exists i, indx s xmin xmax xx = Ok i /\ (i < length (a_partial s))%nat.
Proof.
  intros Hl H0 H1. unfold indx. rewrite Hl.
  destruct (Rleb_spec xx xmin) as [Ha|Ha].
  - exists 0%nat. unfold npts. split; auto; lia.
  - destruct (Rleb_spec xmax xx) as [Hb|Hb].
    + exists 9%nat. unfold npts. split; auto; lia.
    + apply Rnot_le_lt in Ha, Hb.
      assert (La : ln xmin < ln xx) by (apply ln_increasing; lra).
      assert (Lb : ln xx < ln xmax) by (apply ln_increasing; lra).
      set (q := (ln xx - ln xmin) / ((ln xmax - ln xmin) / INR (npts - 1))).
      assert (Hq : q = (ln xx - ln xmin) / (ln xmax - ln xmin) * INR (npts - 1)).
      { unfold q. assert (INR (npts - 1) <> 0) by (unfold npts; simpl; lra). field. split; lra. }
      assert (Hn : INR (npts - 1) = 9) by (unfold npts; simpl; lra).
      assert (Hr : 0 < (ln xx - ln xmin) / (ln xmax - ln xmin) < 1).
      { split.
        - apply Rdiv_lt_0_compat; lra.
        - apply Rmult_lt_reg_r with (ln xmax - ln xmin); [lra|].
          unfold Rdiv. rewrite Rmult_assoc, Rinv_l; lra. }
      assert (Ht : (trunc_nat q < npts)%nat).
      { apply trunc_lt; rewrite Hq, Hn; unfold npts; simpl; nra. }
      rewrite (proj2 (Nat.ltb_lt _ _) Ht). eauto.
Qed.

(** Invariant of Accumulator in a state whose accumulated sum is [acc]. *)
Record ainv (s : accum) (acc : R) : Prop := {
  ai_bounds : match a_xmin s, a_xmax s with
              | Some a, Some b => 0 < a <= b /\ a_setOuter s = false
              | None, None => a_setOuter s = true
              | _, _ => False
              end;
  ai_first : if a_first s then a_total s = acc
             else length (a_partial s) = npts /\ Forall sbn_ok (a_partial s) /\
                  Rsum (map sbn_val (a_partial s)) = acc;
  ai_partial : a_first s = true -> a_partial s = []
}.

Lemma ainv_init : ainv accum_init 0.
Proof. split; simpl; auto. Qed.

Lemma Rsum_map_upd (f : sbn -> R) l i b : (i < length l)%nat ->
  Rsum (map f (upd l i b)) = Rsum (map f l) - f (nth i l sbn_init) + f b.
Proof.
  revert i; induction l as [|c l IH]; intros [|i] H; simpl in *; try lia; try lra.
  rewrite IH by lia. lra.
Qed.

Lemma Forall_upd {A} (P : A -> Prop) l i x : Forall P l -> P x -> Forall P (upd l i x).
Proof.
  intros H Hx. revert i; induction H as [|y l Hy Hl IH]; intros [|i]; simpl; auto.
Qed.

Lemma accum_add_spec s acc v : ainv s acc ->
  (a_setOuter s = true -> v <> 0) ->
  (a_setOuter s = true -> acc = 0) ->
  exists s', accum_add s v = Ok s' /\ ainv s' (acc + v) /\ a_setOuter s' = false.
Proof.
  intros [Hb Hf Hp] Hv Ha. unfold accum_add.
  set (bounds := if a_setOuter s && negb (Reqb (Rabs v) 0) then _ else _).
  assert (B : exists s1 a b, bounds = Ok s1 /\ a_xmin s1 = Some a /\ a_xmax s1 = Some b /\ 0 < a <= b /\
     a_setOuter s1 = false /\ a_first s1 = a_first s /\ a_partial s1 = a_partial s /\
     (a_first s = true -> a_total s1 = acc)).
  { unfold bounds. destruct (a_setOuter s) eqn:E; simpl.
    - specialize (Hv eq_refl). specialize (Ha eq_refl).
      destruct (Reqb_spec (Rabs v) 0) as [Hz|Hz]; simpl.
      + exfalso. revert Hz. apply Rabs_no_R0. auto.
      + eexists; eexists; eexists. split; [reflexivity|]. simpl.
        repeat (split; auto). pose proof (Rabs_pos v). lra. lra.
    - destruct (a_xmin s) as [xmin|]; destruct (a_xmax s) as [xmax|]; try contradiction; try discriminate.
      destruct Hb as [Hb _].
      eexists; eexists; eexists. split; [reflexivity|]. simpl.
      split; [reflexivity|]. split; [reflexivity|].
      split.
      { pose proof (Rabs_pos v).
        destruct (Rltb_spec (Rabs v) xmin); simpl.
        - destruct (Reqb_spec (Rabs v) 0); simpl.
          + destruct (Rltb_spec xmax (Rabs v)); lra.
          + destruct (Rltb_spec max_xrange (Rabs v / xmax)); destruct (Rltb_spec xmax (Rabs v)); lra.
        - destruct (Rltb_spec xmax (Rabs v)); lra. }
      repeat (split; auto). intros F. rewrite F in Hf. auto. }
  destruct B as (s1 & a & b & E & Ea & Eb & Hab & Eo & Ef & Ep & Et). rewrite E. simpl.
  rewrite Ef, Ea, Eb. destruct (a_first s) eqn:F.
  - eexists; split; [reflexivity|]. split; [|simpl; auto]. split; simpl; auto.
    + rewrite Et; auto.
    + intros _. rewrite Ep. auto.
  - destruct Hf as (Hl & Hok & Hs).
    destruct (indx_in_range s1 a b (Rabs v)) as (i & Hi & Hlt); try lra.
    { now rewrite Ep. }
    rewrite Hi. simpl. rewrite (vec_get_ok _ _ sbn_init) by auto. simpl.
    assert (Hoki : sbn_ok (nth i (a_partial s1) sbn_init)).
    { rewrite Ep in *. rewrite Forall_forall in Hok. apply Hok. now apply nth_In. }
    destruct (sbn_add_spec _ v Hoki) as (b' & Eb' & Vb' & Ob'). rewrite Eb'. simpl.
    rewrite vec_set_ok by auto. simpl. eexists; split; [reflexivity|]. split; [|simpl; auto].
    split; simpl; auto; [|discriminate].
    rewrite upd_length, Ep. split; auto. split.
    + apply Forall_upd; auto.
    + rewrite <- Ep. rewrite Rsum_map_upd by auto. rewrite Vb'. rewrite Ep. rewrite <- Hs. lra.
Qed.

Lemma accum_total_spec s acc : ainv s acc ->
  exists s', accum_total s = (acc, s') /\ ainv s' 0 /\ a_setOuter s' = a_setOuter s.
Proof.
  intros [Hb Hf Hp]. unfold accum_total. destruct (a_first s) eqn:F.
  - rewrite Hf. eexists; split; [reflexivity|]. split; [|reflexivity].
    rewrite (Hp eq_refl). split; simpl; auto; [|discriminate].
    split; auto. split; [|unfold sbn_val; simpl; lra].
    repeat constructor; discriminate.
  - destruct Hf as (Hl & Hok & Hs).
    set (t := fold_left Rplus _ 0).
    assert (Et : t = acc).
    { unfold t. rewrite fold_left_Rsum, (Rsum_perm _ _ (sort_perm _)).
      rewrite (map_ext _ sbn_val). { rewrite Hs; lra. }
      intros b. unfold sbn_total, sbn_val. simpl. rewrite fold_left_Rsum. lra. }
    rewrite Et. eexists. split; [reflexivity|]. split; [|reflexivity].
    split; simpl; auto; [|discriminate].
    split; auto. split; [|unfold sbn_val; simpl; lra].
    repeat constructor; discriminate.
Qed.

Lemma accum_run_spec os : forall s acc, ainv s acc ->
  (a_setOuter s = true -> acc = 0 /\ first_add_nonzero os) ->
  accum_run s os = Ok (totals_spec 0 Rplus acc os).
Proof.
  induction os as [|[v|] os IH]; intros s acc Hi Hf; simpl; auto.
  - destruct (accum_add_spec s acc v Hi) as (s' & E & I & O).
    + intros H. apply Hf in H. simpl in H. tauto.
    + intros H. apply Hf in H. tauto.
    + rewrite E. simpl. apply IH; auto. rewrite O. discriminate.
  - destruct (accum_total_spec s acc Hi) as (s' & E & I & O). rewrite E.
    rewrite (IH s' 0); auto. rewrite O. intros H. apply Hf in H. simpl in H. tauto.
Qed.

Lemma accum_correct os : first_add_nonzero os ->
  accum_run accum_init os = Ok (totals_spec 0 Rplus 0 os).
Proof. intros H. apply accum_run_spec; [apply ainv_init|auto]. Qed.

Lemma accum_zero_first os : accum_run accum_init (AAdd 0 :: os) = UB.
Proof.
  simpl. unfold accum_add. simpl. rewrite Rabs_R0.
  destruct (Reqb_spec 0 0); simpl; [reflexivity|lra].
Qed.

From Coq Require Import Reals Lra.
From Verif Require Import Base AccumModel AccumProofs VecModel PoissonModel DerivSpec NewtonModel.
Local Open Scope R_scope.

Lemma partial_at_unique F p i d d' : partial_at F p i d -> partial_at F p i d' -> d = d'.
Proof.
  intros (v & e1 & f & Ev & P1 & Q1 & D1) (v' & e2 & g & Ev' & P2 & Q2 & D2).
  rewrite Ev in Ev'. injection Ev' as <-.
  apply (uniqueness_limite f v); auto.
  intros eps He. destruct (D2 eps He) as [a Ha].
  assert (0 < Rmin a (Rmin e1 e2)) as Hm by (repeat apply Rmin_glb_lt; auto; apply cond_pos).
  exists (mkposreal _ Hm). intros h Hh Hl. simpl in Hl.
  assert (Rabs h < e1 /\ Rabs h < e2 /\ Rabs h < a) as (H1 & H2 & H3).
  { pose proof (Rmin_l a (Rmin e1 e2)). pose proof (Rmin_r a (Rmin e1 e2)). pose proof (Rmin_l e1 e2). pose proof (Rmin_r e1 e2). lra. }
  assert (forall x, Rabs (x - v) < e1 -> Rabs (x - v) < e2 -> f x = g x) as E.
  { intros x A B. specialize (Q1 x A). specialize (Q2 x B). congruence. }
  rewrite (E (v + h)), (E v).
  - apply Ha; auto.
  - rewrite Rminus_diag_eq, Rabs_R0 by auto. auto.
  - rewrite Rminus_diag_eq, Rabs_R0 by auto. auto.
  - replace (v + h - v) with h by lra. auto.
  - replace (v + h - v) with h by lra. auto.
Qed.

Section Fit.
Variables (invert : list (list R) -> Z * (nat -> nat -> R)) (svd_solve : list (list R) -> list R -> Z * list R)
  (LL : list R -> outcome R) (GH : list R -> outcome (list R * list (list R))).
Notation loop := (fit_loop invert svd_solve LL GH).

Definition good (ll0 : R) (norms : list R) (ll : R) : Prop := LL norms = Ok ll /\ ll0 <= ll.

Lemma obind_ok {A B} (x : outcome A) (f : A -> outcome B) b : obind x f = Ok b -> exists a, x = Ok a /\ f a = Ok b.
Proof. destruct x; simpl; try discriminate. eauto. Qed.

Lemma loop_damped tol ll0 : forall fuel s r, 0 < f_lambda s -> good ll0 (f_norms s) (f_ll s) -> loop fuel tol s = Ok r ->
  match r with
  | inl res => good ll0 (fr_norms res) (fr_ll res)
  | inr (s', _) => 0 < f_lambda s' /\ good ll0 (f_norms s') (f_ll s')
  end.
Proof.
  induction fuel as [|fuel IH]; intros s r Hl Hg E; simpl in E.
  - injection E as <-. auto.
  - destruct (Rltb tol (Rabs (f_edm s))); simpl in E; [|injection E as <-; auto].
    apply obind_ok in E as ([g h] & _ & E).
    destruct (Rltb_spec 0 (f_lambda s)) as [_|]; [|lra].
    destruct (delta_lm svd_solve h g (f_norms s) (f_lambda s)) as [[cov delta] edm].
    destruct (cov =? 0)%Z; simpl in E; [|injection E as <-; auto].
    apply obind_ok in E as (nt & _ & E). apply obind_ok in E as (s' & E' & E).
    apply obind_ok in E' as (lli & EL & E').
    assert (0 < f_lambda s' /\ good ll0 (f_norms s') (f_ll s')) as [H1 H2].
    { destruct Hg as [Hg1 Hg2].
      destruct (Rltb_spec (f_ll s) lli) as [Hlt|]; injection E' as <-; simpl.
      - split; [|split; auto; lra]. eapply Rlt_le_trans; [|apply Rmax_l]. apply Rinv_0_lt_compat. lra.
      - split; [lra|split; auto]. }
    destruct (existsb _ _); [injection E as <-; auto|].
    destruct (_ || _); [injection E as <-; auto|]. apply (IH s'); auto.
Qed.

Lemma fit_damped init tol maxIter lambda res : 0 < lambda ->
  fit_newton invert svd_solve LL GH init tol maxIter lambda false = Ok res ->
  exists ll0, LL init = Ok ll0 /\ LL (fr_norms res) = Ok (fr_ll res) /\ ll0 <= fr_ll res.
Proof.
  intros Hl E. unfold fit_newton in E. apply obind_ok in E as (ll0 & E0 & E). exists ll0. split; auto.
  destruct (length init =? 0)%nat.
  { injection E as <-. simpl. split; auto. lra. }
  cbn [obind] in E. apply obind_ok in E as (r & Er & E).
  assert (good ll0 init ll0) as Hg by (split; auto; lra).
  pose proof (loop_damped tol ll0 maxIter (mk_fit init ll0 lambda (100 * tol) 0 true) r Hl Hg Er) as HL.
  destruct r as [res'|[s b]].
  { injection E as <-. exact HL. }
  destruct HL as (HL1 & HL2 & HL3). destruct (Reqb_spec (f_lambda s) 0); [lra|].
  apply obind_ok in E as (ll & E1 & E). apply obind_ok in E1 as (? & _ & E1). injection E1 as <-.
  destruct b; [injection E as <-; auto|].
  destruct (Rltb_spec (f_ll s - ll0) (-1)); [lra|]. injection E as <-. auto.
Qed.

Lemma loop_undamped tol : forall fuel s r, f_lambda s = 0 -> loop fuel tol s = Ok r ->
  match r with
  | inl res => fr_code res <> 0%Z
  | inr (s', _) => f_lambda s' = 0
  end.
Proof.
  induction fuel as [|fuel IH]; intros s r Hl E; simpl in E.
  - injection E as <-. auto.
  - destruct (Rltb tol (Rabs (f_edm s))); simpl in E; [|injection E as <-; auto].
    apply obind_ok in E as ([g h] & _ & E).
    destruct (Rltb_spec 0 (f_lambda s)) as [|_]; [lra|].
    destruct (delta_newton invert h g (f_norms s)) as [[cov delta] edm].
    destruct (Z.eqb_spec cov 0); simpl in E; [|injection E as <-; auto].
    apply obind_ok in E as (nt & _ & E). cbn [obind] in E.
    destruct (existsb _ _); [injection E as <-; simpl; lia|].
    destruct (_ || _); [injection E as <-; auto|]. apply (IH _ r) in E; auto.
Qed.

Lemma fit_undamped init tol maxIter res nocounts : fr_code res = 0%Z ->
  fit_newton invert svd_solve LL GH init tol maxIter 0 nocounts = Ok res ->
  exists ll0, LL init = Ok ll0 /\ LL (fr_norms res) = Ok (fr_ll res) /\ (nocounts = false -> ll0 - 1 <= fr_ll res).
Proof.
  intros Hc E. unfold fit_newton in E. apply obind_ok in E as (ll0 & E0 & E). exists ll0. split; auto.
  destruct (length init =? 0)%nat.
  { injection E as <-. simpl. split; auto. lra. }
  apply obind_ok in E as ([[norms edm] lli] & E1 & E).
  assert (nocounts = false -> lli = ll0) as Hli by (intros ->; now injection E1).
  apply obind_ok in E as (r & Er & E).
  pose proof (loop_undamped tol maxIter (mk_fit norms ll0 0 edm 0 true) r eq_refl Er) as HL.
  destruct r as [res'|[s b]].
  { injection E as <-. contradiction. }
  destruct (Reqb_spec (f_lambda s) 0); [|congruence].
  apply obind_ok in E as (ll & E2 & E).
  destruct b; [injection E as <-; discriminate|].
  destruct (Rltb_spec (ll - lli) (-1)); injection E as <-; [discriminate|]. simpl. split; auto.
  intros H. rewrite (Hli H) in *. lra.
Qed.

(** *** non-negativity *)
Lemma clamp_gt_ok : forall delta norms g ds gs, clamp_gt delta norms g = (ds, gs, false) -> Forall2 (fun d n => d <= n) ds (firstn (length ds) norms).
Proof.
  induction delta as [|d delta IH]; intros [|n norms] [|x g] ds gs E; simpl in E; try (injection E as <- <-; constructor).
  destruct (clamp_gt delta norms g) as [[ds' gs'] retry] eqn:E'. destruct (Rltb_spec n d); [discriminate|].
  injection E as <- <- ->. simpl. constructor; [lra|]. eapply IH; eauto.
Qed.
Lemma clamp_lo_ok : forall delta norms g ds gs b, Forall (Rle 0) norms -> clamp_lo delta norms g = (ds, gs, b) ->
  Forall2 (fun d n => d <= n) ds (firstn (length ds) norms).
Proof.
  induction delta as [|d delta IH]; intros [|n norms] [|x g] ds gs b H E; simpl in E; try (injection E as <- <- <-; constructor).
  inversion H; subst.
  destruct (clamp_lo delta norms g) as [[ds' gs'] retry] eqn:E'. destruct (Rltb_spec (n - d) 0); injection E as <- <- <-; simpl;
   (constructor; [|eapply IH; eauto]); [|lra]. pose proof (Rmin_r (c9999 * n) (n - 0)). lra.
Qed.
Lemma clamp_zero_ok : forall delta norms, Forall (Rle 0) norms -> Forall2 (fun d n => d <= n) (clamp_zero delta norms) (firstn (length (clamp_zero delta norms)) norms).
Proof.
  induction delta as [|d delta IH]; intros [|n norms] H; simpl; try constructor.
  - inversion H; subst. destruct (Rltb_spec n d); lra.
  - inversion H; subst. apply IH; auto.
Qed.
Lemma vsub_nonneg : forall norms delta r, vsub norms delta = Ok r -> Forall2 (fun d n => d <= n) delta (firstn (length delta) norms) ->
  Forall (Rle 0) r.
Proof.
  induction norms as [|n norms IH]; intros [|d delta] r E H; simpl in E; try discriminate.
  - injection E as <-. constructor.
  - apply obind_ok in E as (r' & E' & E). injection E as <-. simpl in H. inversion H; subst. constructor; [lra|]. eapply IH; eauto.
Qed.

Lemma newton_nonneg h g norms c delta edm : Forall (Rle 0) norms -> delta_newton invert h g norms = (c, delta, edm) -> c = 0%Z ->
  Forall2 (fun d n => d <= n) delta (firstn (length delta) norms).
Proof.
  intros Hn E Hc. unfold delta_newton in E. destruct (invert h) as [ifail covar].
  destruct (Z.eqb_spec ifail 0) as [->|]; simpl in E; [|injection E as <- <- <-; contradiction].
  destruct (clamp_gt _ norms g) as [[ds gs] retry] eqn:E1. destruct retry; injection E as <- <- <-.
  - now apply clamp_zero_ok.
  - eapply clamp_gt_ok; eauto.
Qed.
Lemma lm_nonneg h g norms l c delta edm : Forall (Rle 0) norms -> delta_lm svd_solve h g norms l = (c, delta, edm) -> c = 0%Z ->
  Forall2 (fun d n => d <= n) delta (firstn (length delta) norms).
Proof.
  intros Hn E Hc. unfold delta_lm in E. destruct (svd_solve _ g) as [ifail delta0].
  destruct (Z.eqb_spec ifail 0) as [->|]; simpl in E; [|injection E as <- <- <-; contradiction].
  destruct (clamp_lo delta0 norms g) as [[ds gs] retry] eqn:E1. destruct retry.
  - destruct (svd_solve _ gs) as [ifail2 delta1].
    destruct (Z.eqb_spec ifail2 0) as [->|]; simpl in E; [|injection E as <- <- <-; contradiction].
    destruct (clamp_lo delta1 norms gs) as [[ds2 gs2] b2] eqn:E2. injection E as <- <- <-. eapply clamp_lo_ok; eauto.
  - injection E as <- <- <-. eapply clamp_lo_ok; eauto.
Qed.

Lemma loop_nonneg tol : forall fuel s r, Forall (Rle 0) (f_norms s) -> loop fuel tol s = Ok r ->
  match r with
  | inl res => Forall (Rle 0) (fr_norms res)
  | inr (s', _) => Forall (Rle 0) (f_norms s')
  end.
Proof.
  induction fuel as [|fuel IH]; intros s r Hn E; simpl in E.
  - injection E as <-. auto.
  - destruct (Rltb tol (Rabs (f_edm s))); simpl in E; [|injection E as <-; auto].
    apply obind_ok in E as ([g h] & _ & E).
    destruct (if Rltb 0 (f_lambda s) then _ else _) as [[cov delta] edm] eqn:ED.
    destruct (Z.eqb_spec cov 0) as [->|]; simpl in E; [|injection E as <-; auto].
    apply obind_ok in E as (nt & En & E). apply obind_ok in E as (s' & E' & E).
    assert (Forall (Rle 0) nt) as Hnt.
    { apply (vsub_nonneg _ _ _ En). destruct (Rltb 0 (f_lambda s)).
      - eapply lm_nonneg; eauto.
      - eapply newton_nonneg; eauto. }
    assert (Forall (Rle 0) (f_norms s')) as Hs'.
    { destruct (Rltb 0 (f_lambda s)); [|injection E' as <-; auto].
      apply obind_ok in E' as (lli & _ & E'). destruct (Rltb (f_ll s) lli); injection E' as <-; auto. }
    destruct (existsb _ _); [injection E as <-; auto|].
    destruct (_ || _); [injection E as <-; auto|]. apply (IH s'); auto.
Qed.

Lemma Forall_upd (P : R -> Prop) : forall l i x, Forall P l -> P x -> Forall P (upd l i x).
Proof. induction l as [|y l IH]; intros [|i] x H Hx; simpl; auto; inversion H; subst; constructor; auto. Qed.

Lemma fit_nonneg init tol maxIter lambda nocounts res : Forall (Rle 0) init ->
  fit_newton invert svd_solve LL GH init tol maxIter lambda nocounts = Ok res -> Forall (Rle 0) (fr_norms res).
Proof.
  intros Hn E. unfold fit_newton in E. apply obind_ok in E as (ll0 & E0 & E).
  destruct (length init =? 0)%nat.
  { injection E as <-. auto. }
  apply obind_ok in E as ([[norms edm] lli] & E1 & E).
  assert (Forall (Rle 0) norms) as Hn'.
  { destruct nocounts; [|injection E1 as <- <- <-; auto]. apply obind_ok in E1 as (? & _ & E1). injection E1 as <- <- <-.
    apply Forall_upd; auto. lra. }
  apply obind_ok in E as (r & Er & E).
  pose proof (loop_nonneg tol maxIter (mk_fit norms ll0 lambda edm 0 true) r Hn' Er) as HL.
  destruct r as [res'|[s b]]; [injection E as <-; auto|].
  apply obind_ok in E as (ll & E2 & E).
  destruct b; [injection E as <-; auto|].
  destruct (Rltb _ _); injection E as <-; simpl; auto.
  apply Forall_forall. intros x Hx. apply repeat_spec in Hx. lra.
Qed.
End Fit.

(** For C80/C180. *)
From Coq Require Import Reals Lra ZArith List Bool Lia.
From Verif Require Import Base AccumModel AccumProofs CmapProofs NscModel NscSpec.
Import ListNotations.
Local Open Scope nat_scope.

Definition par0 : par := mk_par 0 false 0 false 0 0.

(** Same source, bounds and freedom; same value if fixed. *)
Definition same (p q : par) : Prop :=
  pr_src p = pr_src q /\ pr_norm p = pr_norm q /\ pr_lo p = pr_lo q /\ pr_hi p = pr_hi q /\ pr_free p = pr_free q /\
  (pr_free p = false -> pr_val p = pr_val q).
Lemma same_refl p : same p p. Proof. repeat split. Qed.
Lemma same_all_refl ps : Forall2 same ps ps. Proof. induction ps; constructor; auto using same_refl. Qed.
Lemma same_trans p q r : same p q -> same q r -> same p r.
Proof. intros (A1 & A2 & A3 & A4 & A5 & A6) (B1 & B2 & B3 & B4 & B5 & B6). repeat split; try congruence. intros H. rewrite A6 by exact H. apply B6. congruence. Qed.
Lemma same_all_trans ps qs rs : Forall2 same ps qs -> Forall2 same qs rs -> Forall2 same ps rs.
Proof.
  intros H. revert rs. induction H as [|p q ps qs Hp _ IH]; intros rs Hr; inversion Hr; subst; constructor; eauto using same_trans.
Qed.
Lemma same_length ps qs : Forall2 same ps qs -> length ps = length qs.
Proof. induction 1; cbn; auto. Qed.
Lemma same_nth ps qs : Forall2 same ps qs -> forall i p, nth_error ps i = Some p -> exists q, nth_error qs i = Some q /\ same p q.
Proof.
  induction 1 as [|p q ps qs Hp _ IH]; intros [|i] r E; cbn in *; try discriminate; [injection E as ->; eauto|eauto].
Qed.
Lemma same_upd ps qs : Forall2 same ps qs -> forall i p q, same p q -> Forall2 same (upd ps i p) (upd qs i q).
Proof. induction 1 as [|p q ps qs Hp Hps IH]; intros [|i] p' q' H; cbn; constructor; auto. Qed.
Lemma same_allowed ps qs : Forall2 same ps qs -> forall xs, allowed ps xs <-> allowed qs xs.
Proof.
  unfold allowed. induction 1 as [|p q ps qs (A1 & A2 & A3 & A4 & A5 & A6) _ IH]; intros xs.
  - reflexivity.
  - split; intros H; inversion H; subst; constructor; try (apply IH; assumption).
    + rewrite <- A5, <- A3, <- A4. destruct (pr_free p); [assumption|]. rewrite <- A6 by reflexivity. assumption.
    + rewrite A5, A3, A4. rewrite <- A5 in *. destruct (pr_free p); [assumption|]. rewrite A6 by reflexivity. assumption.
Qed.
Lemma same_best f ps qs v : Forall2 same ps qs -> best f ps v -> best f qs v.
Proof.
  intros H ((xs & A & E) & M). split.
  - exists xs. split; [now apply (same_allowed _ _ H)|exact E].
  - intros ys Hy. apply M. now apply (same_allowed _ _ H).
Qed.

Lemma with_vals_ok ps xs : allowed ps xs -> Forall2 same ps (with_vals ps xs) /\ map pr_val (with_vals ps xs) = xs.
Proof.
  unfold allowed, with_vals. induction 1 as [|p x ps xs Hp _ (IH1 & IH2)]; cbn [combine map]; [split; [constructor|reflexivity]|].
  split; [|cbn; now rewrite IH2]. constructor; [|exact IH1]. cbn. repeat split. cbn. intros F. rewrite F in Hp. now symmetry.
Qed.
Lemma allowed_with ps xs : allowed ps xs -> allowed (with_vals ps xs) (map pr_val (with_vals ps xs)).
Proof. intros H. destruct (with_vals_ok ps xs H) as (S & E). rewrite E. now apply (same_allowed _ _ S). Qed.

Lemma upd_nth_same {A} (l : list A) i x : nth_error l i = Some x -> upd l i x = l.
Proof. revert i. induction l as [|y l IH]; intros [|i] E; cbn in *; try discriminate; [congruence|]. now rewrite IH. Qed.
Lemma upd_upd {A} (l : list A) i x y : upd (upd l i x) i y = upd l i y.
Proof. revert i. induction l as [|z l IH]; intros [|i]; cbn; auto. now rewrite IH. Qed.
Lemma nth_error_upd {A} (l : list A) i x : i < length l -> nth_error (upd l i x) i = Some x.
Proof. revert i. induction l as [|z l IH]; intros [|i] H; cbn in *; try lia; auto. apply IH. lia. Qed.

Lemma norm_of_in ps n i : norm_of ps n = Some i -> exists p, nth_error ps i = Some p /\ pr_src p = n /\ pr_norm p = true.
Proof.
  revert i. induction ps as [|p ps IH]; intros i E; cbn in E; [discriminate|].
  destruct (Z.eqb_spec (pr_src p) n); cbn [andb] in E.
  - destruct (pr_norm p) eqn:En; [injection E as <-; exists p; auto|]. destruct (norm_of ps n); [|discriminate]. injection E as <-. apply IH. reflexivity.
  - destruct (norm_of ps n); [|discriminate]. injection E as <-. apply IH. reflexivity.
Qed.
Lemma update_ok s i f p : nth_error (st_pars s) i = Some p ->
  update s i f = obind (f p) (fun p' : par => Ok (mk_state (upd (st_pars s) i p') (st_kmin s) (st_kmax s))).
Proof.
  intros E. unfold update, vec_get. rewrite E. cbn [obind]. destruct (f p); cbn [obind]; try reflexivity.
  rewrite vec_set_ok by (apply nth_error_Some; congruence). reflexivity.
Qed.

Lemma count_free_ok (unc : list R) ps : forall n, n + length (filter pr_free ps) <= length unc ->
  mfold (fun nfree p => if pr_free p then obind (vec_get unc nfree) (fun _ => Ok (S nfree)) else Ok nfree) ps n = Ok (n + length (filter pr_free ps)).
Proof.
  induction ps as [|p ps IH]; intros n H; cbn [mfold filter] in *; [f_equal; cbn; lia|].
  destruct (pr_free p); cbn [length] in *.
  - rewrite (vec_get_ok unc n 0%R) by lia. cbn [obind]. rewrite IH by lia. f_equal. lia.
  - cbn [obind]. apply IH. exact H.
Qed.
Lemma count_free_inv (unc : list R) ps : forall n m, mfold (fun nfree p => if pr_free p then obind (vec_get unc nfree) (fun _ => Ok (S nfree)) else Ok nfree) ps n = Ok m ->
  m = n + length (filter pr_free ps).
Proof.
  induction ps as [|p ps IH]; intros n m H; cbn [mfold filter] in *; [injection H as <-; cbn; lia|].
  destruct (pr_free p); cbn [length].
  - destruct (vec_get unc n); cbn [obind] in H; try discriminate. apply IH in H. lia.
  - cbn [obind] in H. now apply IH in H.
Qed.

(** Only one free parameter: without it the values are settled. *)
Lemma filter_upd_free ps : forall i p, nth_error ps i = Some p -> pr_free p = true -> forall q, pr_free q = false ->
  length (filter pr_free ps) = S (length (filter pr_free (upd ps i q))).
Proof.
  induction ps as [|r ps IH]; intros [|i] p E F q Q; cbn in *; try discriminate.
  - injection E as ->. rewrite F, Q. reflexivity.
  - destruct (pr_free r); cbn; rewrite (IH i p E F q Q); reflexivity.
Qed.
Lemma no_free ps xs : length (filter pr_free ps) = 0 -> allowed ps xs -> xs = map pr_val ps.
Proof.
  intros L H. unfold allowed in H. induction H as [|p x ps xs Hp _ IH]; [reflexivity|]. cbn in *. destruct (pr_free p); [discriminate|]. rewrite IH by exact L. congruence.
Qed.
Lemma filter_same ps qs : Forall2 same ps qs -> length (filter pr_free ps) = length (filter pr_free qs).
Proof. induction 1 as [|p q ps qs (A1 & A2 & A3 & A4 & A5 & A6) _ IH]; cbn; [reflexivity|]. rewrite A5. destruct (pr_free q); cbn; congruence. Qed.

Lemma grid_length st n : forall a, length (grid st a n) = n.
Proof. induction n as [|n IH]; intros a; cbn; auto. Qed.
Lemma grid_nth st n : forall a k, k < n -> nth k (grid st a n) 0%R = (a + INR k * st)%R.
Proof.
  induction n as [|n IH]; intros a k H; [lia|]. cbn [grid]. destruct k as [|k]; cbn [nth]; [cbn; lra|]. rewrite IH by lia. rewrite S_INR. lra.
Qed.
Lemma grid_even a b n : 2 <= n -> even_grid a b n (grid ((b - a) / (INR n - 1)) a n).
Proof.
  intros Hn. assert (P : (0 < INR n - 1)%R) by (assert (1 < INR n)%R by (change 1%R with (INR 1); apply lt_INR; lia); lra).
  assert (Em : INR (n - 1) = (INR n - 1)%R) by (rewrite minus_INR by lia; reflexivity).
  split; [apply grid_length|]. split; [rewrite grid_nth by lia; cbn; lra|]. split.
  - rewrite grid_nth by lia. rewrite Em. field. lra.
  - intros k Hk. rewrite !grid_nth by lia. rewrite S_INR, Em. lra.
Qed.

Section Scan.
Variable nebins : nat.
Variable like : nat -> nat -> list R -> R.
Variable optimum : nat -> nat -> list par -> list R.
Variable uncertainty : nat -> nat -> list par -> list R.
Hypothesis Hright : right like optimum.
Variables kmin kmax : nat.
Hypothesis Hk : kmax <= nebins.

Lemma value_ok ps : value nebins like (mk_state ps kmin kmax) = Ok (like kmin kmax (map pr_val ps)).
Proof. unfold value. cbn [st_kmin st_kmax st_pars]. destruct (Nat.ltb_spec nebins kmax) as [H|_]; [exfalso; clear - H Hk; lia|]. rewrite andb_false_r. reflexivity. Qed.

(** One step, from any state that differs in values of free parameters only. *)
Lemma step_ok ps0 i p (n : nat) cur x0 x s' v :
  nth_error ps0 i = Some p -> n = length (filter pr_free (freed ps0 i p)) ->
  Forall2 same (pinned ps0 i p x0) cur -> allowed (pinned ps0 i p x0) (map pr_val cur) ->
  scan_step nebins like optimum i n (mk_state cur kmin kmax) x = Ok (s', v) ->
  st_kmin s' = kmin /\ st_kmax s' = kmax /\ Forall2 same (pinned ps0 i p x) (st_pars s') /\
  allowed (pinned ps0 i p x) (map pr_val (st_pars s')) /\ best (like kmin kmax) (pinned ps0 i p x) v /\ (pr_lo p <= x <= pr_hi p)%R.
Proof.
  intros Ei En Hs Ha E. assert (Hi : i < length ps0) by (apply nth_error_Some; congruence).
  destruct (same_nth _ _ Hs i _ (nth_error_upd ps0 i _ Hi)) as (q & Eq & (A1 & A2 & A3 & A4 & A5 & A6)). cbn in A1, A2, A3, A4, A5.
  unfold scan_step in E. rewrite (update_ok _ _ _ q) in E by exact Eq. unfold set_val in E at 1. rewrite <- A3, <- A4 in E.
  destruct (Rltb_spec x (pr_lo p)); [discriminate|]. destruct (Rltb_spec (pr_hi p) x); [discriminate|]. cbn [orb obind] in E.
  cbn [st_pars st_kmin st_kmax] in E. set (cur' := upd cur i (mk_par (pr_src q) (pr_norm q) x (pr_free q) (pr_lo p) (pr_hi p))) in *.
  assert (Hs' : Forall2 same (pinned ps0 i p x) cur').
  { unfold cur', pinned. replace (upd ps0 i (mk_par (pr_src p) (pr_norm p) x false (pr_lo p) (pr_hi p))) with (upd (pinned ps0 i p x0) i (mk_par (pr_src p) (pr_norm p) x false (pr_lo p) (pr_hi p))) by apply upd_upd.
    apply same_upd; [exact Hs|]. repeat split; cbn; auto. }
  assert (Ha' : allowed (pinned ps0 i p x) (map pr_val cur')).
  { assert (U : forall l ys j r y, List.Forall2 (fun p x => if pr_free p then (pr_lo p <= x <= pr_hi p)%R else x = pr_val p) l ys ->
       pr_free r = false -> y = pr_val r -> List.Forall2 (fun p x => if pr_free p then (pr_lo p <= x <= pr_hi p)%R else x = pr_val p) (upd l j r) (upd ys j y)).
    { intros l ys j r y H. revert j. induction H as [|a b l ys Hab Hl IH]; intros [|j] F Y; cbn; constructor; auto. rewrite F. exact Y. }
    unfold allowed, pinned. replace (upd ps0 i (mk_par (pr_src p) (pr_norm p) x false (pr_lo p) (pr_hi p))) with (upd (pinned ps0 i p x0) i (mk_par (pr_src p) (pr_norm p) x false (pr_lo p) (pr_hi p))) by apply upd_upd.
    assert (M : map pr_val cur' = upd (map pr_val cur) i x).
    { unfold cur'. clear. revert i. induction cur as [|c l IH]; intros [|i]; cbn; auto. now rewrite IH. }
    rewrite M. apply U; [exact Ha|reflexivity|reflexivity]. }
  destruct (Nat.ltb_spec 1 n) as [Hn|Hn].
  - unfold find_min in E. cbn [st_pars st_kmin st_kmax] in E. rewrite value_ok in E. cbn [obind] in E. injection E as <- <-. cbn [st_pars st_kmin st_kmax].
    assert (Hcur : allowed cur' (map pr_val cur')) by now apply (same_allowed _ _ Hs').
    destruct (Hright kmin kmax cur' Hcur) as (O1 & O2). destruct (with_vals_ok cur' _ O1) as (W1 & W2). rewrite W2.
    assert (Hs2 : Forall2 same (pinned ps0 i p x) (with_vals cur' (optimum kmin kmax cur'))) by (eapply same_all_trans; eassumption).
    split; [reflexivity|]. split; [reflexivity|]. split; [exact Hs2|]. split; [now apply (same_allowed _ _ Hs')|].
    split; [|lra]. destruct O2 as ((ys & Y1 & Y2) & Y3). split.
    + exists ys. split; [now apply (same_allowed _ _ Hs')|exact Y2].
    + intros zs Hz. apply Y3. now apply (same_allowed _ _ Hs').
  - rewrite value_ok in E. cbn [obind] in E. injection E as <- <-. cbn [st_pars st_kmin st_kmax].
    split; [reflexivity|]. split; [reflexivity|]. split; [exact Hs'|]. split; [exact Ha'|]. split; [|lra].
    split; [exists (map pr_val cur'); auto|]. intros xs Hx.
    assert (L : length (filter pr_free (pinned ps0 i p x)) = 0).
    { assert (F : length (filter pr_free (freed ps0 i p)) = S (length (filter pr_free (pinned ps0 i p x)))).
      { replace (pinned ps0 i p x) with (upd (freed ps0 i p) i (mk_par (pr_src p) (pr_norm p) x false (pr_lo p) (pr_hi p))) by apply upd_upd.
        eapply filter_upd_free; [apply nth_error_upd, Hi|reflexivity|reflexivity]. }
      lia. }
    rewrite (no_free _ _ L Hx), (no_free _ _ L Ha'). lra.
Qed.

(** A step succeeds if the value is within the bounds. *)
Lemma step_runs ps0 i p n cur x0 x : nth_error ps0 i = Some p ->
  Forall2 same (pinned ps0 i p x0) cur -> (pr_lo p <= x <= pr_hi p)%R ->
  exists s' v, scan_step nebins like optimum i n (mk_state cur kmin kmax) x = Ok (s', v).
Proof.
  intros Ei Hs Hx. assert (Hi : i < length ps0) by (apply nth_error_Some; congruence).
  destruct (same_nth _ _ Hs i _ (nth_error_upd ps0 i _ Hi)) as (q & Eq & (A1 & A2 & A3 & A4 & A5 & A6)). cbn in A3, A4.
  unfold scan_step. rewrite (update_ok _ _ _ q) by exact Eq. unfold set_val at 1. rewrite <- A3, <- A4.
  destruct (Rltb_spec x (pr_lo p)); [lra|]. destruct (Rltb_spec (pr_hi p) x); [lra|]. cbn [orb obind st_pars st_kmin st_kmax].
  destruct (1 <? n); unfold find_min; cbn [st_pars st_kmin st_kmax]; rewrite value_ok; cbn [obind]; eauto.
Qed.

Lemma steps_ok ps0 i p n norms : nth_error ps0 i = Some p -> n = length (filter pr_free (freed ps0 i p)) ->
  forall cur x0 acc s' likes, Forall2 same (pinned ps0 i p x0) cur -> allowed (pinned ps0 i p x0) (map pr_val cur) ->
  mfold (fun sl x => obind (scan_step nebins like optimum i n (fst sl) x) (fun sv => Ok (fst sv, snd sl ++ [snd sv]))) norms (mk_state cur kmin kmax, acc) = Ok (s', likes) ->
  st_kmin s' = kmin /\ st_kmax s' = kmax /\ Forall2 same (pinned ps0 i p (last norms x0)) (st_pars s') /\
  allowed (pinned ps0 i p (last norms x0)) (map pr_val (st_pars s')) /\
  exists vs, likes = acc ++ vs /\ Forall2 (fun x v => best (like kmin kmax) (pinned ps0 i p x) v /\ (pr_lo p <= x <= pr_hi p)%R) norms vs.
Proof.
  intros Ei En. induction norms as [|x norms IH]; intros cur x0 acc s' likes Hs Ha E; cbn [mfold] in E.
  - injection E as <- <-. cbn. repeat split; auto. exists []. split; [now rewrite app_nil_r|constructor].
  - cbn [fst snd] in E. destruct (scan_step nebins like optimum i n (mk_state cur kmin kmax) x) as [(s1, v)| |] eqn:E1; cbn [obind] in E; try discriminate.
    destruct (step_ok ps0 i p n cur x0 x s1 v Ei En Hs Ha E1) as (K1 & K2 & S1 & A1 & B1 & R1).
    destruct s1 as [c1 k1 k2]. cbn [st_kmin st_kmax st_pars fst snd] in *. subst k1 k2.
    destruct (IH c1 x (acc ++ [v]) s' likes S1 A1 E) as (L1 & L2 & L3 & L3' & (vs & -> & L4)).
    split; [exact L1|]. split; [exact L2|]. apply and_assoc. split.
    + destruct norms as [|y norms]; [split; [exact L3|exact L3']|]. replace (last (x :: y :: norms) x0) with (last (y :: norms) x); [split; [exact L3|exact L3']|].
      clear. assert (D : forall (l : list R) y a b, last (y :: l) a = last (y :: l) b) by (induction l as [|z l IHl]; intros; cbn [last] in *; auto).
      cbn [last]. destruct norms; [reflexivity|]. apply D.
    + exists (v :: vs). split; [now rewrite <- app_assoc|]. constructor; auto.
Qed.

Lemma steps_run ps0 i p n norms : nth_error ps0 i = Some p -> n = length (filter pr_free (freed ps0 i p)) ->
  forall cur x0 acc, Forall2 same (pinned ps0 i p x0) cur -> allowed (pinned ps0 i p x0) (map pr_val cur) ->
  (forall x, In x norms -> (pr_lo p <= x <= pr_hi p)%R) ->
  exists s' likes, mfold (fun sl x => obind (scan_step nebins like optimum i n (fst sl) x) (fun sv => Ok (fst sv, snd sl ++ [snd sv]))) norms (mk_state cur kmin kmax, acc) = Ok (s', likes).
Proof.
  intros Ei En. induction norms as [|x norms IH]; intros cur x0 acc Hs Ha Hx; cbn [mfold]; [eauto|].
  cbn [fst snd]. destruct (step_runs ps0 i p n cur x0 x Ei Hs (Hx x (or_introl eq_refl))) as (s1 & v & E1). rewrite E1. cbn [obind fst snd].
  destruct (step_ok ps0 i p n cur x0 x s1 v Ei En Hs Ha E1) as (K1 & K2 & S1 & A1 & B1 & R1).
  destruct s1 as [c1 k1 k2]. cbn [st_kmin st_kmax st_pars] in *. subst k1 k2. eapply IH; eauto. intros y Hy. apply Hx. now right.
Qed.
End Scan.

Lemma norm_of_same ps qs n : Forall2 same ps qs -> norm_of ps n = norm_of qs n.
Proof. induction 1 as [|p q ps qs (A1 & A2 & A3 & A4 & A5 & A6) _ IH]; cbn; [reflexivity|]. rewrite A1, A2, IH. reflexivity. Qed.
Lemma freed_same ps qs i p q : Forall2 same ps qs -> same p q -> Forall2 same (freed ps i p) (freed qs i q).
Proof. intros H (A1 & A2 & A3 & A4 & A5 & A6). unfold freed. apply same_upd; [exact H|]. split; [exact A1|]. split; [exact A2|]. split; [exact A3|]. split; [exact A4|]. split; [reflexivity|]. cbn. discriminate. Qed.
Lemma pinned_same ps qs i p q x : Forall2 same ps qs -> same p q -> Forall2 same (pinned ps i p x) (pinned qs i q x).
Proof. intros H (A1 & A2 & A3 & A4 & A5 & A6). unfold pinned. apply same_upd; [exact H|]. repeat split; cbn; assumption. Qed.
Lemma allowed_pin_free ps i p x xs : nth_error ps i = Some p -> (pr_lo p <= x <= pr_hi p)%R -> allowed (pinned ps i p x) xs -> allowed (freed ps i p) xs.
Proof.
  intros E Hx. unfold allowed, pinned, freed. revert i xs E. induction ps as [|q ps IH]; intros [|i] xs E H; cbn in *; try discriminate.
  - injection E as ->. inversion H; subst. cbn in *. constructor; [cbn; lra|assumption].
  - inversion H; subst. constructor; [assumption|]. eapply IH; eassumption.
Qed.
Lemma allowed_val ps i p xs : nth_error ps i = Some p -> allowed (freed ps i p) xs -> exists x, nth_error xs i = Some x /\ (pr_lo p <= x <= pr_hi p)%R.
Proof.
  unfold allowed, freed. revert i xs. induction ps as [|q ps IH]; intros [|i] xs E H; cbn in *; try discriminate.
  - injection E as ->. inversion H; subst. cbn in *. eauto.
  - inversion H; subst. cbn. eapply IH; eassumption.
Qed.
Lemma allowed_unpin ps i p x q xs : nth_error ps i = Some p -> allowed (freed ps i p) xs -> nth_error xs i = Some x -> q = mk_par (pr_src p) (pr_norm p) x false (pr_lo p) (pr_hi p) ->
  allowed (upd ps i q) xs.
Proof.
  intros E H Ex ->. unfold allowed, freed in *. revert i xs E H Ex. induction ps as [|r ps IH]; intros [|i] xs E H Ex; cbn in *; try discriminate.
  - injection E as ->. inversion H; subst. cbn in *. injection Ex as ->. constructor; [reflexivity|assumption].
  - inversion H; subst. cbn in Ex. constructor; [assumption|]. eapply IH; eassumption.
Qed.
Lemma map_with ps xs i x q : nth_error ps i = Some q -> nth_error xs i = Some x ->
  nth_error (with_vals ps xs) i = Some (mk_par (pr_src q) (pr_norm q) x (pr_free q) (pr_lo q) (pr_hi q)).
Proof.
  unfold with_vals. revert i xs. induction ps as [|p ps IH]; intros [|i] [|y xs] E1 E2; cbn in *; try discriminate; [congruence|]. now apply IH.
Qed.
Lemma upd_map_val ps i p p' : nth_error ps i = Some p -> pr_val p' = pr_val p -> map pr_val (upd ps i p') = map pr_val ps.
Proof. intros E V. revert i E. induction ps as [|q ps IH]; intros [|i] E; cbn in *; try discriminate; [congruence|]. now rewrite IH. Qed.
Lemma forall2_len {A B} (P : A -> B -> Prop) l m : Forall2 P l m -> length l = length m.
Proof. induction 1; cbn; auto. Qed.

Section Whole.
Variable nebins : nat.
Variable like : nat -> nat -> list R -> R.
Variable optimum : nat -> nat -> list par -> list R.
Variable uncertainty : nat -> nat -> list par -> list R.

(** The values of a scan. *)
Definition norms_of (mle err : R) (nnorms : nat) : list R :=
  grid ((Rmax (5 / 2) (mle + 10 * err) - Rmax (1 / 10 ^ 10) (mle - 10 * err)) / (INR nnorms - 1)) (Rmax (1 / 10 ^ 10) (mle - 10 * err)) nnorms.

Lemma scan_ok s signal i p kmin kmax nnorms s' sc : right like optimum -> kmax <= nebins ->
  norm_of (st_pars s) signal = Some i -> nth_error (st_pars s) i = Some p ->
  allowed (freed (st_pars s) i p) (map pr_val (st_pars s)) ->
  scan_norm_binned nebins like optimum uncertainty s signal kmin kmax nnorms = Ok (s', sc) ->
  good_scan (like kmin kmax) (st_pars s) i p nnorms sc /\
  (exists err, nth_error (uncertainty kmin kmax (freed (st_pars s) i p)) 0 = Some err /\ sc_norms sc = norms_of (sc_mle sc) err nnorms) /\
  Forall2 same (freed (st_pars s) i p) (st_pars s') /\
  allowed (freed (st_pars s) i p) (map pr_val (st_pars s')) /\
  (exists p', nth_error (st_pars s') i = Some p' /\ pr_free p' = true /\ pr_val p' = last (sc_norms sc) (sc_mle sc)).
Proof.
  intros Hr Hk Hi Ep Ha E. destruct s as [ps k0 k1]. cbn [st_pars] in *. unfold scan_norm_binned in E. cbn [st_pars] in E. rewrite Hi in E.
  assert (Li : i < length ps) by (apply nth_error_Some; congruence).
  rewrite (update_ok _ _ _ p) in E by exact Ep. cbn [obind set_klims st_pars st_kmin st_kmax] in E.
  assert (Ef : upd ps i (set_free true p) = freed ps i p) by reflexivity. rewrite Ef in E.
  assert (Ha0 : allowed (freed ps i p) (map pr_val (freed ps i p))).
  { unfold freed at 2. rewrite (upd_map_val _ _ p) by (auto; exact Ep). exact Ha. }
  destruct (Hr kmin kmax _ Ha0) as (O1 & O2). destruct (with_vals_ok _ _ O1) as (W1 & W2).
  unfold find_min in E. cbn [st_pars st_kmin st_kmax] in E. set (xs := optimum kmin kmax (freed ps i p)) in *. set (c := with_vals (freed ps i p) xs) in *.
  destruct (allowed_val ps i p xs Ep O1) as (x & Ex & Hx).
  assert (Ec : nth_error c i = Some (mk_par (pr_src p) (pr_norm p) x true (pr_lo p) (pr_hi p))).
  { unfold c. rewrite (map_with _ _ i x (mk_par (pr_src p) (pr_norm p) (pr_val p) true (pr_lo p) (pr_hi p))); [reflexivity|apply nth_error_upd, Li|exact Ex]. }
  destruct (count_free c _) as [n| |] eqn:En; cbn [obind] in E; try discriminate. unfold count_free in En. apply count_free_inv in En. cbn [plus] in En.
  rewrite <- (filter_same _ _ W1) in En.
  rewrite value_ok in E by exact Hk. cbn [obind] in E. rewrite W2 in E. unfold vec_get at 1 in E. rewrite Ec in E. cbn [obind pr_val] in E.
  unfold vec_get at 1 in E. destruct (nth_error (uncertainty kmin kmax (freed ps i p)) 0) as [err|] eqn:Ee; cbn [obind] in E; [|discriminate].
  rewrite (update_ok (mk_state c kmin kmax) i _ _ Ec) in E. cbn [obind st_pars st_kmin st_kmax set_free pr_src pr_norm pr_val pr_lo pr_hi] in E.
  fold (norms_of x err nnorms) in E. set (norms := norms_of x err nnorms) in *.
  set (c1 := upd c i _) in E.
  assert (S1 : Forall2 same (pinned ps i p x) c1).
  { unfold c1, pinned. replace (upd ps i (mk_par (pr_src p) (pr_norm p) x false (pr_lo p) (pr_hi p))) with (upd (freed ps i p) i (mk_par (pr_src p) (pr_norm p) x false (pr_lo p) (pr_hi p))) by apply upd_upd.
    apply same_upd; [exact W1|]. apply same_refl. }
  assert (A1 : allowed (pinned ps i p x) (map pr_val c1)).
  { unfold c1. rewrite (upd_map_val _ _ _ _ Ec) by reflexivity. rewrite W2. unfold pinned. eapply allowed_unpin; eauto. }
  destruct (mfold _ norms (mk_state c1 kmin kmax, [])) as [(s1, likes)| |] eqn:Em; cbn [obind fst snd] in E; try discriminate.
  destruct (steps_ok nebins like optimum Hr kmin kmax Hk ps i p n norms Ep En c1 x [] s1 likes S1 A1 Em) as (K1 & K2 & S2 & A2 & (vs & Ev & V)).
  cbn [app] in Ev. subst likes. destruct s1 as [c2 k2 k3]. cbn [st_kmin st_kmax st_pars] in *. subst k2 k3.
  destruct (same_nth _ _ S2 i _ (nth_error_upd ps i _ Li)) as (q & Eq & (B1 & B2 & B3 & B4 & B5 & B6)). cbn in B1, B2, B3, B4, B5, B6. specialize (B6 eq_refl).
  rewrite (update_ok _ _ _ q) in E by exact Eq. cbn [obind st_pars st_kmin st_kmax] in E. injection E as <- <-. cbn [st_pars sc_norms sc_mle sc_like sc_likes].
  assert (S3 : Forall2 same (freed ps i p) (upd c2 i (set_free true q))).
  { unfold freed. replace (upd ps i (mk_par (pr_src p) (pr_norm p) (pr_val p) true (pr_lo p) (pr_hi p))) with (upd (pinned ps i p (last norms x)) i (mk_par (pr_src p) (pr_norm p) (pr_val p) true (pr_lo p) (pr_hi p))) by apply upd_upd.
    apply same_upd; [exact S2|]. unfold set_free. split; [exact B1|]. split; [exact B2|]. split; [exact B3|]. split; [exact B4|]. split; [reflexivity|]. cbn. discriminate. }
  assert (Bl : (pr_lo p <= last norms x <= pr_hi p)%R).
  { clear - V Hx. induction V as [|y v l l' (_ & Hy) V IH]; [exact Hx|]. destruct l; [exact Hy|exact IH]. }
  assert (Af : allowed (freed ps i p) (map pr_val (upd c2 i (set_free true q)))).
  { rewrite (upd_map_val _ _ _ _ Eq) by reflexivity.
    apply (allowed_pin_free ps i p (last norms x)); [exact Ep|exact Bl|].
    exact A2. }
  split; [|split; [exists err; auto|split; [exact S3|split; [exact Af|]]]].
  - split; [exact O2|]. split; [exists xs; auto|]. split; [apply grid_length|]. cbn.
    clear - V O2 Ep. induction V as [|y v l l' (By & Hy) V IH]; constructor; auto. split; [exact By|].
    destruct By as ((ys & Y1 & <-) & _). destruct O2 as (_ & M). apply M. eapply allowed_pin_free; eauto.
  - exists (set_free true q). split; [|split; [reflexivity|exact (eq_sym B6)]]. apply nth_error_upd. apply nth_error_Some. congruence.
Qed.

Lemma grid_within a b n x : 2 <= n -> (a <= b)%R -> In x (grid ((b - a) / (INR n - 1)) a n) -> (a <= x <= b)%R.
Proof.
  intros Hn Hab H. apply (In_nth _ _ 0%R) in H. destruct H as (k & Hl & <-). rewrite grid_length in Hl. rewrite grid_nth by exact Hl.
  assert (P : (0 < INR n - 1)%R) by (assert (1 < INR n)%R by (change 1%R with (INR 1); apply lt_INR; lia); lra).
  assert (Pk : (0 <= INR k <= INR n - 1)%R).
  { split; [apply pos_INR|]. replace (INR n - 1)%R with (INR (n - 1)) by (rewrite minus_INR by lia; reflexivity). apply le_INR. lia. }
  assert (F : (0 <= INR k * ((b - a) / (INR n - 1)) <= b - a)%R).
  { replace (INR k * ((b - a) / (INR n - 1)))%R with ((INR k / (INR n - 1)) * (b - a))%R by (field; lra).
    assert (Q : (0 <= INR k / (INR n - 1) <= 1)%R).
    { split; [apply Rmult_le_pos; [lra|]; apply Rlt_le, Rinv_0_lt_compat; lra|]. apply Rmult_le_reg_r with (INR n - 1)%R; [lra|]. unfold Rdiv. rewrite Rmult_assoc, Rinv_l by lra. lra. }
    split; [apply Rmult_le_pos; lra|]. rewrite <- (Rmult_1_l (b - a)) at 2. apply Rmult_le_compat_r; lra. }
  lra.
Qed.

Lemma scan_runs s signal i p kmin kmax nnorms mle err : right like optimum -> kmax <= nebins -> 2 <= nnorms ->
  norm_of (st_pars s) signal = Some i -> nth_error (st_pars s) i = Some p ->
  allowed (freed (st_pars s) i p) (map pr_val (st_pars s)) ->
  length (filter pr_free (freed (st_pars s) i p)) <= length (uncertainty kmin kmax (freed (st_pars s) i p)) ->
  nth_error (uncertainty kmin kmax (freed (st_pars s) i p)) 0 = Some err ->
  nth_error (optimum kmin kmax (freed (st_pars s) i p)) i = Some mle -> (0 <= err)%R ->
  (pr_lo p <= 1 / 10 ^ 10)%R -> (5 / 2 <= pr_hi p)%R -> (mle + 10 * err <= pr_hi p)%R ->
  exists s' sc, scan_norm_binned nebins like optimum uncertainty s signal kmin kmax nnorms = Ok (s', sc) /\ sc_mle sc = mle.
Proof.
  intros Hr Hk Hn Hi Ep Ha Hu Ee Ex He B1 B2 B3. destruct s as [ps k0 k1]. cbn [st_pars] in *. unfold scan_norm_binned. cbn [st_pars]. rewrite Hi.
  assert (Li : i < length ps) by (apply nth_error_Some; congruence).
  rewrite (update_ok _ _ _ p) by exact Ep. cbn [obind set_klims st_pars st_kmin st_kmax].
  assert (Ef : upd ps i (set_free true p) = freed ps i p) by reflexivity. rewrite Ef.
  assert (Ha0 : allowed (freed ps i p) (map pr_val (freed ps i p))).
  { unfold freed at 2. rewrite (upd_map_val _ _ p) by (auto; exact Ep). exact Ha. }
  destruct (Hr kmin kmax _ Ha0) as (O1 & O2). destruct (with_vals_ok _ _ O1) as (W1 & W2).
  unfold find_min. cbn [st_pars st_kmin st_kmax]. set (xs := optimum kmin kmax (freed ps i p)) in *. set (c := with_vals (freed ps i p) xs) in *.
  assert (Ec : nth_error c i = Some (mk_par (pr_src p) (pr_norm p) mle true (pr_lo p) (pr_hi p))).
  { unfold c. rewrite (map_with _ _ i mle (mk_par (pr_src p) (pr_norm p) (pr_val p) true (pr_lo p) (pr_hi p))); [reflexivity|apply nth_error_upd, Li|exact Ex]. }
  unfold count_free. rewrite count_free_ok by (cbn [plus]; rewrite <- (filter_same _ _ W1); exact Hu). cbn [obind plus].
  rewrite value_ok by exact Hk. cbn [obind]. rewrite W2. unfold vec_get at 1. rewrite Ec. cbn [obind pr_val].
  unfold vec_get at 1. rewrite Ee. cbn [obind].
  rewrite (update_ok (mk_state c kmin kmax) i _ _ Ec). cbn [obind st_pars st_kmin st_kmax set_free pr_src pr_norm pr_val pr_lo pr_hi].
  fold (norms_of mle err nnorms). set (norms := norms_of mle err nnorms) in *. set (c1 := upd c i _).
  assert (S1 : Forall2 same (pinned ps i p mle) c1).
  { unfold c1, pinned. replace (upd ps i (mk_par (pr_src p) (pr_norm p) mle false (pr_lo p) (pr_hi p))) with (upd (freed ps i p) i (mk_par (pr_src p) (pr_norm p) mle false (pr_lo p) (pr_hi p))) by apply upd_upd.
    apply same_upd; [exact W1|]. apply same_refl. }
  assert (A1 : allowed (pinned ps i p mle) (map pr_val c1)).
  { unfold c1. rewrite (upd_map_val _ _ _ _ Ec) by reflexivity. rewrite W2. unfold pinned. eapply allowed_unpin; eauto. }
  assert (Hm : (pr_lo p <= mle <= pr_hi p)%R) by (destruct (allowed_val ps i p xs Ep O1) as (y & Ey & Hy); congruence).
  assert (Hx : forall y, In y norms -> (pr_lo p <= y <= pr_hi p)%R).
  { intros y Hy. unfold norms, norms_of in Hy. pose proof (Rmax_l (1 / 10 ^ 10) (mle - 10 * err)). pose proof (Rmax_l (5 / 2) (mle + 10 * err)). pose proof (Rmax_r (5 / 2) (mle + 10 * err)).
    assert (Ht : (1 / 10 ^ 10 <= 5 / 2)%R) by lra.
    assert (Rmax (1 / 10 ^ 10) (mle - 10 * err) <= Rmax (5 / 2) (mle + 10 * err))%R by (apply Rmax_lub; lra).
    assert (Rmax (5 / 2) (mle + 10 * err) <= pr_hi p)%R by (apply Rmax_lub; lra).
    apply grid_within in Hy; [lra|exact Hn|lra]. }
  rewrite <- (filter_same _ _ W1).
  destruct (steps_run nebins like optimum Hr kmin kmax Hk ps i p _ norms Ep eq_refl c1 mle [] S1 A1 Hx) as (s1 & likes & Em). rewrite Em. cbn [obind fst snd].
  destruct (steps_ok nebins like optimum Hr kmin kmax Hk ps i p _ norms Ep eq_refl c1 mle [] s1 likes S1 A1 Em) as (_ & _ & S2 & _).
  destruct (same_nth _ _ S2 i _ (nth_error_upd ps i _ Li)) as (q & Eq & _).
  rewrite (update_ok _ _ _ q) by exact Eq. cbn [obind]. eauto.
Qed.

Lemma good_scan_same ps qs i p q f n sc : Forall2 same ps qs -> same p q -> good_scan f qs i q n sc -> good_scan f ps i p n sc.
Proof.
  intros H Hp (G1 & (xs & X1 & X2 & X3) & G3 & G4).
  assert (Hs : forall a b, Forall2 same a b -> Forall2 same b a).
  { clear. induction 1 as [|a b l m (A1 & A2 & A3 & A4 & A5 & A6) _ IH]; constructor; auto. repeat split; auto. intros F. symmetry. apply A6. congruence. }
  pose proof (freed_same _ _ i _ _ H Hp) as F. split; [eapply same_best; [apply Hs, F|exact G1]|]. split.
  - exists xs. split; [now apply (same_allowed _ _ F)|auto].
  - split; [exact G3|]. clear G3. induction G4 as [|x v l l' (B1 & B2) _ IH]; constructor; auto. split; [|exact B2]. eapply same_best; [apply Hs, (pinned_same _ _ i _ _ x H Hp)|exact B1].
Qed.

Lemma freed_freed ps i p : nth_error ps i = Some p -> forall qs, Forall2 same (freed ps i p) qs -> exists q, nth_error qs i = Some q /\ pr_free q = true /\
  Forall2 same (freed ps i p) (freed qs i q) /\ same (mk_par (pr_src p) (pr_norm p) (pr_val p) true (pr_lo p) (pr_hi p)) q.
Proof.
  intros E qs H. assert (Li : i < length ps) by (apply nth_error_Some; congruence).
  destruct (same_nth _ _ H i _ (nth_error_upd ps i _ Li)) as (q & Eq & Hq). pose proof Hq as (A1 & A2 & A3 & A4 & A5 & A6). cbn in A5.
  exists q. split; [exact Eq|]. split; [congruence|]. split; [|exact Hq].
  replace (freed qs i q) with qs; [exact H|]. unfold freed. rewrite (upd_nth_same qs i); [reflexivity|]. rewrite Eq. destruct q; cbn in *; subst. reflexivity.
Qed.

Lemma good_freed ps i p f n sc : good_scan f (freed ps i p) i (mk_par (pr_src p) (pr_norm p) (pr_val p) true (pr_lo p) (pr_hi p)) n sc -> good_scan f ps i p n sc.
Proof.
  unfold good_scan, freed, pinned. cbn [pr_src pr_norm pr_val pr_lo pr_hi]. rewrite upd_upd. intros (G1 & G2 & G3 & G4). split; [exact G1|]. split; [exact G2|]. split; [exact G3|].
  clear G1 G2 G3. induction G4 as [|x v l l' (B1 & B2) _ IH]; constructor; auto. split; [|exact B2]. rewrite upd_upd in B1. exact B1.
Qed.

Lemma sed_loop signal nnorms ps i p : right like optimum -> nth_error ps i = Some p -> norm_of ps signal = Some i ->
  forall m, m <= nebins -> forall s s' scs, Forall2 same (freed ps i p) (freed (st_pars s) i (nth i (st_pars s) p)) -> nth_error (st_pars s) i <> None ->
  norm_of (st_pars s) signal = Some i ->
  allowed (freed ps i p) (map pr_val (st_pars s)) ->
  mfold (fun sl ie => obind (scan_norm_binned nebins like optimum uncertainty (fst sl) signal ie (ie + 1) nnorms) (fun sc => Ok (fst sc, snd sl ++ [snd sc]))) (seq 0 m) (s, []) = Ok (s', scs) ->
  length scs = m /\ (forall ie sc, nth_error scs ie = Some sc -> good_scan (like ie (ie + 1)) ps i p nnorms sc) /\
  Forall2 same (freed ps i p) (freed (st_pars s') i (nth i (st_pars s') p)) /\ nth_error (st_pars s') i <> None /\ norm_of (st_pars s') signal = Some i /\
  allowed (freed ps i p) (map pr_val (st_pars s')).
Proof.
  intros Hr Ep Hn. induction m as [|m IH]; intros Hm s s' scs Hs Hi Hns Ha E.
  - cbn in E. injection E as <- <-. split; [reflexivity|]. split; [intros [|ie] sc H; discriminate|]. auto.
  - rewrite seq_S in E. cbn [plus] in E. rewrite mfold_app in E.
    destruct (mfold _ (seq 0 m) (s, [])) as [(s1, scs1)| |] eqn:E1; cbn [obind] in E; try discriminate.
    destruct (IH ltac:(lia) s s1 scs1 Hs Hi Hns Ha E1) as (L & G & Hs1 & Hi1 & Hn1 & Ha1). cbn [mfold fst snd] in E.
    destruct (scan_norm_binned nebins like optimum uncertainty s1 signal m (m + 1) nnorms) as [(s2, sc)| |] eqn:E2; cbn [obind fst snd] in E; try discriminate.
    injection E as <- <-. destruct (nth_error (st_pars s1) i) as [q|] eqn:Eq; [|congruence].
    rewrite (nth_error_nth _ _ p Eq) in Hs1.
    assert (Aq : allowed (freed (st_pars s1) i q) (map pr_val (st_pars s1))) by now apply (same_allowed _ _ Hs1).
    destruct (scan_ok s1 signal i q m (m + 1) nnorms s2 sc Hr ltac:(lia) Hn1 Eq Aq E2) as (G2 & _ & S2 & A2 & (p' & Ep' & Fp' & _)).
    assert (Lq : i < length (st_pars s1)) by (apply nth_error_Some; congruence).
    assert (Lp : i < length ps) by (apply nth_error_Some; congruence).
    assert (S3 : Forall2 same (freed ps i p) (st_pars s2)) by (eapply same_all_trans; [exact Hs1|exact S2]).
    split; [rewrite app_length; cbn; lia|]. split; [|split; [|split; [congruence|split]]].
    + intros ie sc' H. destruct (Nat.lt_ge_cases ie m) as [H1|H1].
      * rewrite nth_error_app1 in H by lia. now apply G.
      * rewrite nth_error_app2 in H by lia. destruct (ie - length scs1) as [|d] eqn:Ed; [|destruct d; discriminate]. injection H as <-. assert (ie = m) by lia. subst ie.
        apply good_freed. eapply good_scan_same; [exact Hs1|apply same_refl|].
        destruct (same_nth _ _ Hs1 i _ (nth_error_upd ps i _ Lp)) as (q2 & Eq2 & Hq2). unfold freed in Eq2. rewrite nth_error_upd in Eq2 by exact Lq. injection Eq2 as <-.
        destruct Hq2 as (A1 & A2' & A3 & A4 & A5 & A6). cbn in A1, A2', A3, A4.
        unfold good_scan, freed, pinned in G2 |- *. cbn [pr_src pr_norm pr_val pr_lo pr_hi]. rewrite !upd_upd. rewrite A1, A2', A3, A4. destruct G2 as (G2a & G2b & G2c & G2d).
        assert (Z : forall g y, best g (upd (st_pars s1) i (mk_par (pr_src q) (pr_norm q) (pr_val q) true (pr_lo q) (pr_hi q))) y -> best g (upd (st_pars s1) i (mk_par (pr_src q) (pr_norm q) (pr_val p) true (pr_lo q) (pr_hi q))) y).
        { intros g y. apply same_best. apply same_upd; [apply same_all_refl|]. repeat split; cbn; discriminate. }
        split; [now apply Z|]. split.
        -- destruct G2b as (ys & Y1 & Y2). exists ys. split; [|exact Y2]. eapply same_allowed; [|exact Y1]. apply same_upd; [apply same_all_refl|]. repeat split; cbn; discriminate.
        -- split; [exact G2c|]. clear - G2d. induction G2d as [|x v l l' (B1 & B2) _ IH]; constructor; auto. split; [|exact B2]. rewrite upd_upd. exact B1.
    + rewrite (nth_error_nth _ _ p Ep'). eapply same_all_trans; [exact S3|]. unfold freed. rewrite (upd_nth_same (st_pars s2) i); [apply same_all_refl|]. rewrite Ep'. destruct p'; cbn in *; subst; reflexivity.
    + rewrite <- Hn. rewrite <- (norm_of_same _ _ signal S3). clear - Ep. unfold freed. revert i Ep. induction ps as [|r l IHl]; intros [|i] Ep; cbn in *; try discriminate; [injection Ep as ->; reflexivity|]. rewrite (IHl _ Ep). reflexivity.
    + now apply (same_allowed _ _ Hs1).
Qed.
End Whole.

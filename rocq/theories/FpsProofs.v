(** Proofs for C82/C182. *)
From Coq Require Import Reals Lra ZArith List Bool Arith Lia.
From Verif Require Import Base AccumModel AccumProofs CmapProofs CmapProofs2 DexpSpec FpsModel FpsSpec.
Import ListNotations.
Local Open Scope R_scope.

(** ** Sums *)
Lemma msum_sum n f : msum n f = sum n f. Proof. induction n as [|n IH]; cbn; [reflexivity|]. now rewrite IH. Qed.
Lemma sum_ext n f g : (forall i, (i < n)%nat -> f i = g i) -> sum n f = sum n g.
Proof. induction n as [|n IH]; intros H; cbn [sum]; [reflexivity|]. rewrite IH by (intros; apply H; lia). now rewrite H by lia. Qed.
Lemma sum_zero n f : (forall i, (i < n)%nat -> f i = 0) -> sum n f = 0.
Proof. induction n as [|n IH]; intros H; cbn [sum]; [reflexivity|]. rewrite IH by (intros; apply H; lia). rewrite H by lia. lra. Qed.
Lemma sum_plus n f g : sum n (fun i => f i + g i) = sum n f + sum n g.
Proof. induction n as [|n IH]; cbn [sum]; [lra|]. rewrite IH. lra. Qed.
Lemma sum_scal n c f : sum n (fun i => c * f i) = c * sum n f.
Proof. induction n as [|n IH]; cbn [sum]; [lra|]. rewrite IH. lra. Qed.
Lemma sum_scal_r n c f : sum n (fun i => f i * c) = sum n f * c.
Proof. induction n as [|n IH]; cbn [sum]; [lra|]. rewrite IH. lra. Qed.
Lemma sum_swap n m f : sum n (fun i => sum m (fun j => f i j)) = sum m (fun j => sum n (fun i => f i j)).
Proof. induction n as [|n IH]; cbn [sum]; [symmetry; now apply sum_zero|]. rewrite IH, <- sum_plus. reflexivity. Qed.
Lemma sum_delta n i f : (i < n)%nat -> sum n (fun k => (if Nat.eqb i k then 1 else 0) * f k) = f i.
Proof.
  induction n as [|n IH]; intros H; [lia|]. cbn [sum]. destruct (Nat.eq_dec i n) as [->|N].
  - rewrite sum_zero. 2:{ intros k Hk. destruct (Nat.eqb_spec n k); [lia|]. lra. } rewrite Nat.eqb_refl. lra.
  - rewrite IH by lia. destruct (Nat.eqb_spec i n); [lia|]. lra.
Qed.

(** The inverse of a covariance has no negative direction. *)
Lemma quad_inverse h m d : inverse_of h m -> symmetric m -> symmetric h -> quad h d = quad m (fun i => sum (dim m) (fun k => el h i k * d k)).
Proof.
  intros (D & I) Sm Sh. unfold quad. rewrite D. set (n := dim m) in *.
  rewrite (sum_ext n (fun i => sum n (fun j => sum n (fun k => el h i k * d k) * el m i j * sum n (fun k => el h j k * d k))) (fun i => sum n (fun k => el h i k * d k) * d i)).
  - apply sum_ext. intros i Hi. rewrite <- sum_scal_r. apply sum_ext. intros j Hj. lra.
  - intros i Hi. rewrite (sum_ext n _ (fun j => sum n (fun k => el h i k * d k) * (el m i j * sum n (fun k => el h j k * d k)))) by (intros; lra). rewrite sum_scal. f_equal.
    rewrite (sum_ext n _ (fun j => sum n (fun k => el m i j * (el h j k * d k)))) by (intros; now rewrite sum_scal). rewrite sum_swap.
    rewrite (sum_ext n _ (fun k => (if Nat.eqb i k then 1 else 0) * d k)); [now apply sum_delta|].
    intros k Hk. rewrite (sum_ext n _ (fun j => (el m i j * el h j k) * d k)) by (intros; lra). rewrite sum_scal_r. f_equal.
    rewrite (sum_ext n _ (fun j => el h k j * el m j i)). 2:{ intros j Hj. rewrite (Sm i j Hi Hj). rewrite (Sh j k) by (rewrite D; assumption). lra. }
    rewrite (I k i Hk Hi). now rewrite Nat.eqb_sym.
Qed.
Lemma inverse_nonneg h m d : inverse_of h m -> covariance m -> symmetric h -> 0 <= quad h d.
Proof. intros I (S & P) Sh. rewrite (quad_inverse h m d I S Sh). apply P. Qed.

(** ** Indices *)
Lemma idx_len k l : length (idx_red k l) = count l.
Proof. revert k. induction l as [|[] l IH]; intros k; cbn; [reflexivity| |]; now rewrite IH. Qed.
Lemma idx_all k n : idx_red k (repeat true n) = seq k n.
Proof. revert k. induction n as [|n IH]; intros k; cbn; [reflexivity|]. now rewrite IH. Qed.
Lemma idx_in k l i : In i (idx_red k l) -> (k <= i < k + length l)%nat.
Proof.
  revert k. induction l as [|b l IH]; intros k H; [destruct H|]. cbn [idx_red] in H. apply in_app_or in H. cbn [length]. destruct H as [H|H].
  - destruct b; [destruct H as [<-|[]]; lia|destruct H].
  - specialize (IH (S k) H). lia.
Qed.
Lemma count_repeat n : count (repeat true n) = n. Proof. induction n; cbn; [reflexivity|]. now rewrite IHn. Qed.

(** A loop that appends one value for each index of a list. *)
Lemma push_list {A} (f : list A -> nat -> outcome (list A)) (v : nat -> A) l : (forall ps i, In i l -> f ps i = Ok (ps ++ [v i])) -> forall ps, mfold f l ps = Ok (ps ++ map v l).
Proof.
  induction l as [|i l IH]; intros H ps; cbn [mfold map]; [now rewrite app_nil_r|]. rewrite H by now left. cbn [obind]. rewrite IH by (intros; apply H; now right). now rewrite <- app_assoc.
Qed.

(** ** Diagonal priors *)
Definition qterm (c h p : R) : R := (p - c) * h * (p - c).
Fixpoint qsum (e : list (R * R)) (ps : list R) : R :=
  match e, ps with ch :: e', p :: ps' => qterm (fst ch) (snd ch) p + qsum e' ps' | _, _ => 0 end.

Lemma sum_shift n f : sum (S n) f = f 0%nat + sum n (fun i => f (S i)).
Proof. induction n as [|n IH]; [cbn; lra|]. cbn [sum] in *. rewrite IH. lra. Qed.
Lemma qsum_sum e ps : length ps = length e -> qsum e ps = sum (length e) (fun i => qterm (fst (nth i e (0, 0))) (snd (nth i e (0, 0))) (nth i ps 0)).
Proof.
  revert ps. induction e as [|ch e IH]; intros [|p ps] H; try discriminate; [reflexivity|]. cbn [length qsum]. rewrite sum_shift. cbn [nth]. f_equal. apply IH. now injection H.
Qed.
Lemma diag_like e cov cons test ps : length ps = length e ->
  logLikelihood (mk_prior (map fst e) cov cons test (diag_mat (map snd e))) ps = Ok (- (1 / 2) * qsum e ps).
Proof.
  intros H. unfold logLikelihood. cbn [p_cent p_hess diag_mat dim el]. rewrite !map_length, H, Nat.eqb_refl. cbn [negb]. f_equal. f_equal. rewrite (qsum_sum e ps H), msum_sum. apply sum_ext. intros i Hi.
  rewrite msum_sum. rewrite (sum_ext _ _ (fun j => (if Nat.eqb i j then 1 else 0) * ((nth i ps 0 - nth i (map fst e) 0) * nth i (map snd e) 0 * (nth j ps 0 - nth j (map fst e) 0)))).
  2:{ intros j Hj. destruct (Nat.eqb i j); lra. }
  rewrite sum_delta by exact Hi. unfold qterm.
  rewrite (nth_indep (map fst e) 0 (fst (0, 0))) by (now rewrite map_length). rewrite map_nth. rewrite (nth_indep (map snd e) 0 (snd (0, 0))) by (now rewrite map_length). rewrite map_nth. reflexivity.
Qed.
Lemma qsum_app e ch ps p : length ps = length e -> qsum (e ++ [ch]) (ps ++ [p]) = qsum e ps + qterm (fst ch) (snd ch) p.
Proof. revert ps. induction e as [|x e IH]; intros [|q ps] H; try discriminate; cbn [qsum app]; [lra|]. rewrite IH by (now injection H). lra. Qed.

(** The diagonal elements that update makes. *)
Definition dterm (has : list bool) (unc : list R) (i : nat) : R * R :=
  if nth i has false && Rltb 0 (Rabs (nth i unc 0)) then (nth i unc 0 * nth i unc 0, 1 / (nth i unc 0 * nth i unc 0)) else (0, 0).
Lemma diagonal_ok unc has n : length unc = n -> length has = n -> diagonal unc has n = Ok (map (dterm has unc) (seq 0 n)).
Proof.
  intros Hu Hh. unfold diagonal. rewrite (push_loop _ (dterm has unc)); [reflexivity|]. intros ps i Hi. rewrite (vec_get_ok has i false) by lia. cbn [obind]. unfold dterm.
  destruct (nth i has false); [rewrite (vec_get_ok unc i 0) by lia|]; reflexivity.
Qed.

Definition entry (cent : list R) (has : list bool) (unc : list R) (i : nat) : R * (R * R) := (nth i cent 0, dterm has unc i).
Lemma update_diag_ok cent unc has free test : length unc = length cent -> length has = length cent -> length free = length cent ->
  exists p, update_diag cent unc has free test = Ok p /\
  p_cent p = map (fun i => nth i cent 0) (idx_red 0 free) ++ (if test then [0] else []) /\
  dim (p_cov p) = (count free + if test then 1 else 0)%nat /\
  (forall a, (a < count free)%nat -> el (p_cov p) a a = fst (dterm has unc (nth a (idx_red 0 free) 0%nat))) /\
  forall ps t, length ps = count free -> logLikelihood p (ps ++ if test then [t] else []) = Ok (- (1 / 2) * qsum (map (fun i => (nth i cent 0, snd (dterm has unc i))) (idx_red 0 free)) ps).
Proof.
  intros Hu Hh Hf. unfold update_diag. rewrite (diagonal_ok unc has (length cent) Hu Hh). cbn [obind]. unfold latchReducedDiagonal.
  rewrite (push_list _ (entry cent has unc)).
  2:{ intros ps i Hi. apply idx_in in Hi. rewrite Hf in Hi.
      assert (Nd : nth_error (map (dterm has unc) (seq 0 (length cent))) i = Some (dterm has unc i)). { apply (map_nth_error (dterm has unc)). rewrite (nth_error_nth' _ 0%nat) by (rewrite seq_length; lia). now rewrite seq_nth by lia. }
      assert (Nc : nth_error cent i = Some (nth i cent 0)) by (apply nth_error_nth'; lia).
      unfold vec_get. destruct test; [rewrite (nth_error_app1 cent) by lia; rewrite (nth_error_app1 (map _ _)) by (rewrite map_length, seq_length; lia)|]; rewrite Nc, Nd; reflexivity. }
  cbn [obind app]. eexists. split; [reflexivity|]. cbn [p_cent p_cov p_hess diag_mat dim].
  set (l := map (entry cent has unc) (idx_red 0 free)). assert (Ll : length l = count free) by (unfold l; now rewrite map_length, idx_len).
  split; [|split; [|split]].
  - destruct test; rewrite ?map_app; unfold l; rewrite map_map; cbn; rewrite ?app_nil_r; reflexivity.
  - rewrite map_length. destruct test; rewrite ?app_length, Ll; cbn; lia.
  - intros a Ha. unfold diag_mat; cbn [el]. rewrite Nat.eqb_refl. apply nth_error_nth.
    assert (Na : nth_error l a = Some (entry cent has unc (nth a (idx_red 0 free) 0%nat))). { unfold l. apply map_nth_error. apply nth_error_nth'. now rewrite idx_len. }
    destruct test; [|now rewrite (map_nth_error (fun x => fst (snd x)) _ _ Na)]. rewrite map_app, nth_error_app1 by (rewrite map_length; lia). now rewrite (map_nth_error (fun x => fst (snd x)) _ _ Na).
  - intros ps t Hp.
    set (e := if test then l ++ [(0, (0, 0))] else l).
    assert (Ee : map fst e = map fst (map (fun x => (fst x, snd (snd x))) e) /\ map (fun x => snd (snd x)) e = map snd (map (fun x => (fst x, snd (snd x))) e)) by (rewrite !map_map; cbn; split; reflexivity).
    destruct Ee as (E1 & E2). rewrite E1, E2, diag_like by (unfold e; rewrite map_length; destruct test; rewrite !app_length, Ll, Hp; cbn; lia). f_equal. f_equal.
    assert (El : map (fun x => (fst x, snd (snd x))) l = map (fun i => (nth i cent 0, snd (dterm has unc i))) (idx_red 0 free)) by (unfold l; rewrite map_map; reflexivity).
    unfold e. destruct test; [|now rewrite app_nil_r, El]. rewrite map_app, El. cbn [map fst snd]. rewrite qsum_app by (now rewrite map_length, idx_len). unfold qterm. cbn. lra.
Qed.

(** ** The priors of the model *)
Lemma penalty_qsum (c h : nat -> R) free : forall ms refs k ps, length ms = length free -> length refs = length free -> length ps = count free ->
  (forall j, (j < length free)%nat -> forall p, qterm (c (k + j)%nat) (h (k + j)%nat) p = match nth j ms None with Some (mean, sigma) => ((p * nth j refs 0 - mean) / sigma) * ((p * nth j refs 0 - mean) / sigma) | None => 0 end) ->
  - (1 / 2) * qsum (map (fun i => (c i, h i)) (idx_red k free)) ps = penalty ms refs free ps.
Proof.
  induction free as [|b free IH]; intros [|m ms] [|r refs] k ps Hm Hr Hp Hq; try discriminate; [cbn; lra|].
  assert (Hq' : forall j, (j < length free)%nat -> forall p, qterm (c (S k + j)%nat) (h (S k + j)%nat) p = match nth j ms None with Some (mean, sigma) => ((p * nth j refs 0 - mean) / sigma) * ((p * nth j refs 0 - mean) / sigma) | None => 0 end).
  { intros j Hj p. specialize (Hq (S j) ltac:(cbn; lia) p). cbn [nth] in Hq. rewrite <- Hq. now rewrite <- plus_n_Sm. }
  destruct b; cbn [idx_red app map].
  - destruct ps as [|p ps]; [discriminate|]. cbn [qsum fst snd penalty]. specialize (Hq 0%nat ltac:(cbn; lia) p) as H0. cbn [nth] in H0. rewrite Nat.add_0_r in H0. rewrite H0.
    rewrite <- (IH ms refs (S k) ps) by (cbn in *; lia || assumption). destruct m as [[mean sigma]|]; lra.
  - cbn [penalty]. destruct (Req_dec 0 0); [|lra]. apply IH; cbn in *; lia || assumption.
Qed.

Lemma extract_loop refs cent unc (has : list bool) : length cent = length refs -> length unc = length refs -> (forall r, In r refs -> 1 / 10 ^ 15 <= r) ->
  exists c u, mfold (fun s i =>
      obind (vec_get refs i) (fun r =>
      if Rltb r small_ref then obind (vec_set (snd s) i false) (fun h => Ok (fst s, h))
      else obind (vec_get (fst (fst s)) i) (fun cv => obind (vec_set (fst (fst s)) i (cv / r)%R) (fun cent =>
           obind (vec_get (snd (fst s)) i) (fun u => obind (vec_set (snd (fst s)) i (u / r)%R) (fun unc => Ok (cent, unc, snd s)))))))
      (seq 0 (length refs)) (cent, unc, has) = Ok (c, u, has) /\ length c = length refs /\ length u = length refs /\
  forall i, (i < length refs)%nat -> nth i c 0 = nth i cent 0 / nth i refs 0 /\ nth i u 0 = nth i unc 0 / nth i refs 0.
Proof.
  intros Lc Lu Hr. match goal with |- context [mfold ?f _ _] => set (step := f) end.
  assert (K : forall m, (m <= length refs)%nat -> exists c u, mfold step (seq 0 m) (cent, unc, has) = Ok (c, u, has) /\ length c = length refs /\ length u = length refs /\
    forall i, (i < length refs)%nat -> nth i c 0 = (if (i <? m)%nat then nth i cent 0 / nth i refs 0 else nth i cent 0) /\ nth i u 0 = (if (i <? m)%nat then nth i unc 0 / nth i refs 0 else nth i unc 0)).
  { induction m as [|m IH]; intros Hm.
    - exists cent, unc. cbn [seq mfold]. auto.
    - destruct (IH ltac:(lia)) as (c & u & E & L1 & L2 & P). rewrite seq_S', mfold_snoc', E. cbn [obind]. unfold step.
      rewrite (vec_get_ok refs m 0) by lia. cbn [obind fst snd]. assert (In (nth m refs 0) refs) by (apply nth_In; lia). specialize (Hr _ H). unfold small_ref. destruct (Rltb_spec (nth m refs 0) (1 / 10 ^ 15)); [lra|].
      rewrite (vec_get_ok c m 0) by lia. cbn [obind]. rewrite vec_set_ok by lia. cbn [obind]. rewrite (vec_get_ok u m 0) by lia. cbn [obind]. rewrite vec_set_ok by lia. cbn [obind].
      eexists. eexists. split; [reflexivity|]. rewrite !upd_length. split; [exact L1|]. split; [exact L2|]. intros i Hi. destruct (P i Hi) as (P1 & P2). destruct (P m ltac:(lia)) as (Q1 & Q2). rewrite Nat.ltb_irrefl in Q1, Q2.
      destruct (Nat.eq_dec i m) as [->|N].
      + rewrite !nth_upd_eq by lia. destruct (Nat.ltb_spec m (S m)); [|lia]. now rewrite Q1, Q2.
      + rewrite !nth_upd_neq by congruence. rewrite P1, P2. destruct (Nat.ltb_spec i m), (Nat.ltb_spec i (S m)); try lia; auto. }
  destruct (K (length refs) (le_n _)) as (c & u & E & L1 & L2 & P). exists c, u. split; [exact E|]. split; [exact L1|]. split; [exact L2|]. intros i Hi. destruct (P i Hi) as (P1 & P2). destruct (Nat.ltb_spec i (length refs)); [|lia]. auto.
Qed.

Lemma penalty_none ms : (forall m, In m ms -> m = None) -> forall refs free ps, penalty ms refs free ps = 0.
Proof.
  induction ms as [|m ms IH]; intros H refs free ps; [reflexivity|]. assert (m = None) by (apply H; now left). subst m.
  destruct refs as [|r refs]; [reflexivity|]. destruct free as [|[] free]; [reflexivity| |].
  - cbn [penalty]. destruct ps as [|p ps]; [reflexivity|]. rewrite IH by (intros; apply H; now right). lra.
  - cbn [penalty]. apply IH. intros; apply H; now right.
Qed.

Lemma nth_seq_map {A} (f : nat -> A) n i d : (i < n)%nat -> nth i (map f (seq 0 n)) d = f i.
Proof. intros H. apply nth_error_nth. apply map_nth_error. rewrite (nth_error_nth' _ 0%nat) by (rewrite seq_length; exact H). now rewrite seq_nth by exact H. Qed.
Lemma map_nth_seq (l : list R) : map (fun i => nth i l 0) (seq 0 (length l)) = l.
Proof. apply (list_ext_nth _ _ 0); rewrite map_length, seq_length; [reflexivity|]. intros i Hi. now rewrite nth_seq_map by exact Hi. Qed.

Lemma nth_mean ms i : (i < length ms)%nat -> nth i (map (fun m : option (R * R) => match m with Some (c, _) => c | None => 0 end) ms) 0 = match nth i ms None with Some (c, _) => c | None => 0 end.
Proof. intros H. apply nth_error_nth. rewrite (map_nth_error (fun m : option (R * R) => match m with Some (c, _) => c | None => 0 end) _ _ (nth_error_nth' ms None H)). reflexivity. Qed.
Lemma nth_sigma ms i : (i < length ms)%nat -> nth i (map (fun m : option (R * R) => match m with Some (_, c) => c | None => 0 end) ms) 0 = match nth i ms None with Some (_, c) => c | None => 0 end.
Proof. intros H. apply nth_error_nth. rewrite (map_nth_error (fun m : option (R * R) => match m with Some (_, c) => c | None => 0 end) _ _ (nth_error_nth' ms None H)). reflexivity. Qed.
Lemma nth_has ms i : (i < length ms)%nat -> nth i (map (fun m : option (R * R) => match m with Some _ => true | None => false end) ms) false = match nth i ms None with Some _ => true | None => false end.
Proof. intros H. apply nth_error_nth. rewrite (map_nth_error (fun m : option (R * R) => match m with Some _ => true | None => false end) _ _ (nth_error_nth' ms None H)). reflexivity. Qed.

Lemma nth_repeat_lt {A} (x d : A) n : forall i, (i < n)%nat -> nth i (repeat x n) d = x.
Proof. induction n as [|n IH]; intros [|i] H; try lia; [reflexivity|]. cbn. apply IH. lia. Qed.

Lemma init_ok c ms free : length ms = length (c_refs c) -> length free = length (c_refs c) -> (forall r, In r (c_refs c) -> 1 / 10 ^ 15 <= r) -> (forall mean sigma, In (Some (mean, sigma)) ms -> 0 < sigma) ->
  exists c1 c2, extract_init_priors_from_model c ms = Ok c1 /\ refactorPrior c1 free = Ok c2 /\ c_refs c2 = c_refs c /\ c_local c2 = c_local c /\ c_global c2 = c_global c /\
  forall test ps t, length ps = count free ->
    match getPrior c2 Init_Prior test with
    | None => penalty ms (c_refs c) free ps = 0
    | Some p => logLikelihood p (ps ++ if test then [t] else []) = Ok (penalty ms (c_refs c) free ps)
    end.
Proof.
  intros Lm Lf Hr Hs. unfold extract_init_priors_from_model, extractPriors. set (N := length (c_refs c)) in *.
  destruct (existsb (fun b => b) (map (fun m : option (R * R) => match m with Some _ => true | None => false end) ms)) eqn:Ex.
  2:{ eexists. eexists. split; [reflexivity|]. unfold refactorPrior. cbn [c_full set_init set_full snd]. split; [reflexivity|]. cbn. split; [reflexivity|]. split; [reflexivity|]. split; [reflexivity|]. intros test ps t Hp.
      assert (Hn : forall m, In m ms -> m = None). { intros [x|] Hm; [|reflexivity]. exfalso. assert (X : existsb (fun b => b) (map (fun m : option (R * R) => match m with Some _ => true | None => false end) ms) = true); [|congruence]. apply existsb_exists. exists true. split; [|reflexivity]. apply in_map_iff. exists (Some x). auto. }
      destruct test; now apply penalty_none. }
  destruct (extract_loop (c_refs c) (map (fun m : option (R * R) => match m with Some (c, _) => c | None => 0 end) ms) (map (fun m : option (R * R) => match m with Some (_, s) => s | None => 0 end) ms) (map (fun m : option (R * R) => match m with Some _ => true | None => false end) ms))
    as (cs & us & E & L1 & L2 & P); rewrite ?map_length; try assumption. cbn beta iota. fold N in E, L1, L2, P. rewrite E. cbn [obind fst snd].
  set (has := map (fun m : option (R * R) => match m with Some _ => true | None => false end) ms) in *.
  assert (Lh : length has = N) by (unfold has; now rewrite map_length).
  destruct (update_diag_ok cs us has (repeat true (length ms)) true) as (pt & Et & _); rewrite ?repeat_length; try congruence. rewrite Et. cbn [obind].
  destruct (update_diag_ok cs us has (repeat true (length ms)) false) as (pb & Eb & Cb & Db & Vb & _); rewrite ?repeat_length; try congruence. rewrite Eb. cbn [obind].
  rewrite idx_all, app_nil_r, Lm, <- L1, map_nth_seq in Cb. rewrite count_repeat, Lm in *. rewrite idx_all in Vb.
  assert (Eu : get_uncertainties pb = Ok (map (fun i => sqrt (fst (dterm has us i))) (seq 0 N))).
  { unfold get_uncertainties. rewrite Cb, Db, L1. destruct (Nat.ltb_spec (N + 0) N); [lia|]. f_equal. apply map_ext_in. intros i Hi. apply in_seq in Hi. rewrite Vb by lia. rewrite seq_nth by lia. reflexivity. }
  set (unc2 := map (fun i => sqrt (fst (dterm has us i))) (seq 0 N)) in *. assert (L3 : length unc2 = N) by (unfold unc2; now rewrite map_length, seq_length).
  assert (B : forall test, exists p, update_diag (p_cent pb) unc2 (repeat true (length unc2)) free test = Ok p /\
    forall ps t, length ps = count free -> logLikelihood p (ps ++ if test then [t] else []) = Ok (penalty ms (c_refs c) free ps)).
  { intros test. rewrite Cb. destruct (update_diag_ok cs unc2 (repeat true (length unc2)) free test) as (p & Ep & _ & _ & _ & Vp); rewrite ?repeat_length; try congruence.
    exists p. split; [exact Ep|]. intros ps t Hp. rewrite (Vp ps t Hp). f_equal. apply (penalty_qsum (fun i => nth i cs 0) (fun i => snd (dterm (repeat true (length unc2)) unc2 i))); [now rewrite Lm, Lf|now rewrite Lf|exact Hp|].
    intros j Hj q. cbn [plus]. assert (Hj' : (j < N)%nat) by lia. destruct (P j Hj') as (P1 & P2).
    rewrite nth_mean in P1 by lia. rewrite nth_sigma in P2 by lia.
    assert (Hrj : 1 / 10 ^ 15 <= nth j (c_refs c) 0) by (apply Hr; apply nth_In; exact Hj'). assert (Pr : 0 < nth j (c_refs c) 0) by (assert (0 < 1 / 10 ^ 15) by (apply Rdiv_lt_0_compat; [lra|apply pow_lt; lra]); lra).
    assert (Nu : nth j unc2 0 = match nth j ms None with Some (_, sigma) => sigma / nth j (c_refs c) 0 | None => 0 end).
    { unfold unc2. rewrite nth_seq_map by exact Hj'. unfold dterm, has. rewrite nth_has by lia. destruct (nth j ms None) as [[mean sigma]|] eqn:Em; cbn [andb fst]; [|apply sqrt_0].
      assert (0 < sigma) by (apply (Hs mean); rewrite <- Em; apply nth_In; lia). rewrite P2. assert (0 < sigma / nth j (c_refs c) 0) by (now apply Rdiv_lt_0_compat).
      rewrite Rabs_right by lra. destruct (Rltb_spec 0 (sigma / nth j (c_refs c) 0)); [|lra]. cbn [fst]. apply sqrt_square. lra. }
    unfold dterm. rewrite nth_repeat_lt by lia. rewrite Nu. destruct (nth j ms None) as [[mean sigma]|] eqn:Em; cbn [andb].
    - assert (0 < sigma) by (apply (Hs mean); rewrite <- Em; apply nth_In; lia). assert (0 < sigma / nth j (c_refs c) 0) by (now apply Rdiv_lt_0_compat).
      rewrite Rabs_right by lra. destruct (Rltb_spec 0 (sigma / nth j (c_refs c) 0)); [|lra]. cbn [snd]. unfold qterm. rewrite P1. field. split; lra.
    - rewrite Rabs_R0. destruct (Rltb_spec 0 0); [lra|]. cbn [snd]. unfold qterm. lra. }
  destruct (B false) as (qb & Eqb & Vqb). destruct (B true) as (qt & Eqt & Vqt).
  eexists. eexists. split; [reflexivity|]. unfold refactorPrior. cbn [c_full set_init set_full snd]. rewrite Eu. cbn [obind]. rewrite Eqb. cbn [obind]. rewrite Eqt. cbn [obind].
  split; [reflexivity|]. cbn. split; [reflexivity|]. split; [reflexivity|]. split; [reflexivity|].
  intros test ps t Hp. destruct test; [exact (Vqt ps t Hp)|exact (Vqb ps t Hp)].
Qed.

(** ** Priors with a covariance *)
Lemma nth_app_l (ps : list R) t i : (i < length ps)%nat -> nth i (ps ++ t) 0 = nth i ps 0. Proof. intros H. now rewrite app_nth1. Qed.
Lemma cov_prior inv cent cov h test : length cent = dim cov -> dim h = dim cov -> inv cov = Some h ->
  exists p, update_cov inv cent cov (repeat true (dim cov)) test = Ok p /\ p_cent p = cent ++ (if test then [0] else []) /\
  forall ps t, length ps = dim cov -> logLikelihood p (ps ++ if test then [t] else []) = Ok (- (1 / 2) * quad h (fun i => nth i ps 0 - nth i cent 0)).
Proof.
  intros Lc Dh Hi. unfold update_cov, latchReducedMatrix. rewrite idx_len, count_repeat, Nat.ltb_irrefl. cbn [obind]. rewrite Hi. set (n := dim cov) in *. destruct test.
  - unfold set_block. destruct (Nat.ltb_spec (n + 1) (dim h)); [lia|]. cbn [obind]. eexists. split; [reflexivity|]. cbn [p_cent]. split; [reflexivity|]. intros ps t Lp.
    unfold logLikelihood. cbn [p_cent p_hess dim el]. rewrite !app_length, Lp, Lc. cbn [length]. rewrite !Nat.eqb_refl. cbn [negb]. f_equal. f_equal. unfold quad. rewrite Dh.
    replace (n + 1)%nat with (S n) by lia. rewrite msum_sum. cbn [sum]. rewrite (sum_ext n _ (fun i => sum n (fun j => (nth i ps 0 - nth i cent 0) * el h i j * (nth j ps 0 - nth j cent 0)))).
    + rewrite (msum_sum (S n)), (sum_zero (S n)); [lra|]. intros j Hj. destruct (Nat.ltb_spec n n); [lia|]. cbn [andb]. lra.
    + intros i Hi'. rewrite msum_sum. cbn [sum]. destruct (Nat.ltb_spec i n); [|lia]. destruct (Nat.ltb_spec n n); [lia|]. cbn [andb].
      rewrite (sum_ext n _ (fun j => (nth i ps 0 - nth i cent 0) * el h i j * (nth j ps 0 - nth j cent 0))); [lra|]. intros j Hj. destruct (Nat.ltb_spec j n); [|lia]. rewrite !nth_app_l by lia. reflexivity.
  - cbn [obind]. eexists. split; [reflexivity|]. cbn [p_cent]. rewrite app_nil_r. split; [reflexivity|]. intros ps t Lp. rewrite app_nil_r.
    unfold logLikelihood. cbn [p_cent p_hess]. rewrite Lp, Lc, Dh, !Nat.eqb_refl. cbn [negb]. f_equal. f_equal. unfold quad. rewrite Dh, msum_sum. apply sum_ext. intros i _. apply msum_sum.
Qed.

Lemma external_ok inv c cent cov h global : length cent = dim cov -> dim h = dim cov -> inv cov = Some h -> (global = true -> snd (c_local c) <> None -> snd (c_global c) <> None) ->
  exists c', buildPriorsFromExternal inv c cent cov (repeat true (dim cov)) global = Ok c' /\ c_refs c' = c_refs c /\ c_pars c' = c_pars c /\ c_init c' = c_init c /\
  (if global then c_local c' = c_local c else c_global c' = c_global c) /\
  forall test, exists p, getPrior c' (if global then Global_Prior else Local_Prior) test = Some p /\
  forall ps t, length ps = dim cov -> logLikelihood p (ps ++ if test then [t] else []) = Ok (- (1 / 2) * quad h (fun i => nth i ps 0 - nth i cent 0)).
Proof.
  intros Lc Dh Hi Hg. destruct (cov_prior inv cent cov h true Lc Dh Hi) as (pt & Et & _ & Vt). destruct (cov_prior inv cent cov h false Lc Dh Hi) as (pb & Eb & _ & Vb).
  unfold buildPriorsFromExternal. rewrite Et. cbn [obind]. rewrite Eb. cbn [obind]. destruct global.
  - exists (set_global c (Some pt, Some pb)). split. { destruct (snd (c_local c)) eqn:E1, (snd (c_global c)) eqn:E2; try reflexivity. exfalso. apply Hg; congruence. }
    cbn. repeat (split; [reflexivity|]). intros [|]; eexists; (split; [reflexivity|assumption]).
  - exists (set_local c (Some pt, Some pb)). split; [reflexivity|]. cbn. repeat (split; [reflexivity|]). intros [|]; eexists; (split; [reflexivity|assumption]).
Qed.

Lemma quad_ext h d e : (forall i, (i < dim h)%nat -> d i = e i) -> quad h d = quad h e.
Proof. intros H. unfold quad. apply sum_ext. intros i Hi. apply sum_ext. intros j Hj. now rewrite (H i Hi), (H j Hj). Qed.
Lemma quad_zero h d : (forall i, (i < dim h)%nat -> d i = 0) -> quad h d = 0.
Proof. intros H. unfold quad. apply sum_zero. intros i Hi. apply sum_zero. intros j Hj. rewrite (H i Hi). lra. Qed.

(** Part of a covariance, times a positive number, is a covariance. *)
Lemma part_covariance n k m f : covariance m -> dim m = (n + k)%nat -> 0 < f -> covariance (mk_mat n (fun i j => f * el m i j)).
Proof.
  intros (Sm & Pm) Dm Hf. split.
  - intros i j Hi Hj. cbn in *. rewrite (Sm i j) by lia. reflexivity.
  - intros d. unfold quad. cbn [dim el]. specialize (Pm (fun i => if (i <? n)%nat then d i else 0)). unfold quad in Pm. rewrite Dm in Pm.
    assert (X : forall k' g, (forall i, (n <= i)%nat -> g i = 0) -> sum (n + k') g = sum n g).
    { induction k' as [|k' IH]; intros g Hg; [now rewrite Nat.add_0_r|]. rewrite <- plus_n_Sm. cbn [sum]. rewrite IH by exact Hg. rewrite Hg by lia. lra. }
    rewrite X in Pm.
    + rewrite (sum_ext n _ (fun i => f * sum n (fun j => d i * el m i j * d j))), sum_scal.
      * apply Rmult_le_pos; [lra|]. erewrite sum_ext; [exact Pm|]. intros i Hi. cbn beta. rewrite X; [apply sum_ext; intros j Hj|]. { destruct (Nat.ltb_spec i n), (Nat.ltb_spec j n); try lia. reflexivity. } intros j Hj. destruct (Nat.ltb_spec j n); [lia|]. lra.
      * intros i Hi. rewrite <- sum_scal. apply sum_ext. intros j Hj. lra.
    + intros i Hi. apply sum_zero. intros j Hj. destruct (Nat.ltb_spec i n); [lia|]. lra.
Qed.

(** Changing one parameter. *)
Lemma quad_step h d i e : symmetric h -> (i < dim h)%nat ->
  quad h (fun k => d k + (if Nat.eqb i k then e else 0)) = quad h d + 2 * e * sum (dim h) (fun k => el h i k * d k) + e * e * el h i i.
Proof.
  intros Sh Hi. unfold quad. set (n := dim h) in *.
  rewrite (sum_ext n _ (fun a => sum n (fun b => d a * el h a b * d b) + (e * (el h i a * d a) + (if Nat.eqb i a then 1 else 0) * (e * sum n (fun b => el h a b * d b) + e * e * el h a i)))).
  - rewrite !sum_plus, sum_delta, sum_scal by exact Hi. lra.
  - intros a Ha. rewrite (sum_ext n _ (fun b => (d a * el h a b * d b) + (((if Nat.eqb i b then 1 else 0) * ((d a + (if Nat.eqb i a then e else 0)) * el h a b * e)) + (if Nat.eqb i a then e else 0) * (el h a b * d b)))).
    + rewrite !sum_plus, sum_delta, sum_scal by exact Hi. rewrite (Sh a i Ha Hi). destruct (Nat.eqb_spec i a) as [->|_]; lra.
    + intros b Hb. destruct (Nat.eqb i a), (Nat.eqb i b); lra.
Qed.

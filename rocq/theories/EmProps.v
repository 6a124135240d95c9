(** C75, C175: the fit by expectation maximisation. *)
From Coq Require Import Reals Lra Lia.
From Coquelicot Require Import Coquelicot.
From Verif Require Import Base AccumModel AccumProofs EmModel EmSpec EmProofs EmProofs2 EmProofs3.
Local Open Scope R_scope.

(** The weights of a round: the probability, under the present parameters, that the event comes from the source. *)
Theorem C75_weights : forall flux nev st W,
  sized (length st) nev W -> (forall i v j, 0 <= flux i v j) ->
  exists W', e_step flux nev st W = Ok W' /\ sized (length st) nev W' /\
  forall j, (j < nev)%nat ->
    (0 < sum (length st) (fun i => flux i (map p_val (concat (nth i st []))) j) ->
      (forall i, (i < length st)%nat ->
         cell W' i j = share (length st) (fun i j => flux i (map p_val (concat (nth i st []))) j) i j /\ 0 <= cell W' i j <= 1) /\
      sum (length st) (fun i => cell W' i j) = 1) /\
    (sum (length st) (fun i => flux i (map p_val (concat (nth i st []))) j) = 0 -> forall i, (i < length st)%nat -> cell W' i j = 0).
Proof.
  intros flux nev st W HS H0. destruct (e_step_ok flux st nev W HS) as (W' & E & S' & C). exists W'. split; [exact E|]. split; [exact S'|].
  intros j Hj. set (F := fun i j => flux i (map p_val (concat (nth i st []))) j). change (fun i => flux i (map p_val (concat (nth i st []))) j) with (fun i => F i j).
  assert (C' : forall i, (i < length st)%nat -> cell W' i j = if Rltb 0 (sum (length st) (fun i => F i j)) then share (length st) F i j else F i j) by (intros; apply C; auto).
  split.
  - intros HT. assert (C2 : forall i, (i < length st)%nat -> cell W' i j = share (length st) F i j).
    { intros i Hi. rewrite C' by assumption. destruct (Rltb_spec 0 (sum (length st) (fun i => F i j))); [reflexivity|lra]. }
    split.
    + intros i Hi. rewrite C2 by assumption. split; [reflexivity|]. unfold share.
      assert (F i j <= sum (length st) (fun i => F i j)) by (apply (sum_ge (length st) (fun i => F i j)); auto; intros; apply H0).
      assert (0 <= F i j) by apply H0. split.
      * apply Rmult_le_pos; [assumption|]. left. now apply Rinv_0_lt_compat.
      * apply (Rmult_le_reg_r (sum (length st) (fun i => F i j))); [assumption|]. unfold Rdiv. rewrite Rmult_assoc, Rinv_l by lra. lra.
    + rewrite (sum_ext _ _ (fun i => F i j / sum (length st) (fun i => F i j))) by (intros; rewrite C2 by assumption; reflexivity).
      rewrite sum_div. field. lra.
  - intros HZ i Hi. rewrite C' by assumption. rewrite HZ. destruct (Rltb_spec 0 0); [lra|].
    assert (F i j <= sum (length st) (fun i => F i j)) by (apply (sum_ge (length st) (fun i => F i j)); auto; intros; apply H0).
    assert (0 <= F i j) by apply H0. lra.
Qed.

(** One round never lowers the log-likelihood by more than what the ignored pairs can account for: if the flux
    density of no ignored pair (one of at most one per cent) falls below exp(-r) times its value, by r times the
    total weight of the ignored pairs. *)
Theorem C75_round : forall flux npred nev opt it st W old st' W' logL go r,
  sized (length st) nev W ->
  turn flux npred nev opt it st W old = Ok (st', W', logL, go) ->
  (forall i v j, 0 <= flux i v j) ->
  (forall j, (j < nev)%nat -> 0 < sum (length st) (fun i => flux i (map p_val (concat (nth i st []))) j)) ->
  improves flux npred nev opt it st W' ->
  0 <= r ->
  let F := fun i j => flux i (map p_val (concat (nth i st []))) j in
  let F' := fun i j => flux i (map p_val (concat (nth i st' []))) j in
  let p := share (length st) F in
  (forall i j, (i < length st)%nat -> (j < nev)%nat -> / 100 < p i j -> / 10 ^ 20 < F i j /\ / 10 ^ 20 < F' i j) ->
  (forall i j, (i < length st)%nat -> (j < nev)%nat -> 0 < p i j <= / 100 -> F i j <= exp r * F' i j) ->
  loglike (length st) nev F (fun i => npred i (map p_val (concat (nth i st []))))
    - r * sum (length st) (fun i => sum nev (fun j => where_ (Rle_dec (p i j) (/ 100)) (p i j)))
  <= loglike (length st') nev F' (fun i => npred i (map p_val (concat (nth i st' [])))).
Proof. intros. eapply round; eauto. Qed.

(** A whole fit, of any length, never lowers the log-likelihood when the flux densities stay so close together
    that no pair is ignored. *)
Theorem C75_fit_never_lowers : forall flux npred nev opt fuel o o' k a b,
  findMin flux npred nev opt fuel o = Some (Ok (o', k)) ->
  / 10 ^ 20 < a -> (forall i v j, a <= flux i v j <= b) -> INR (length (em_src o)) * b < 100 * a ->
  (forall it st W', improves flux npred nev opt it st W') ->
  loglike (length (em_src o)) nev (fun i j => flux i (map p_val (concat (nth i (em_src o) []))) j) (fun i => npred i (map p_val (concat (nth i (em_src o) []))))
  <= loglike (length (em_src o')) nev (fun i j => flux i (map p_val (concat (nth i (em_src o') []))) j) (fun i => npred i (map p_val (concat (nth i (em_src o') [])))).
Proof.
  intros flux npred nev opt fuel o o' k a b E Ha Hab Hn Himp. unfold findMin in E.
  destruct (loop flux npred nev opt fuel 0 (em_src o) _ 0) as [[[st' n]| |]|] eqn:EL; try discriminate. injection E as <- <-. cbn [em_src].
  pose proof small_pos as SP.
  assert (K := loop_inv flux npred nev opt (fun st => length st = length (em_src o) /\
    loglike (length (em_src o)) nev (fl_of flux (em_src o)) (np_of npred (em_src o)) <= loglike (length st) nev (fl_of flux st) (np_of npred st))).
  specialize (K ltac:(clear EL;
    intros it st W old st1 W1 l g (HL & HI) HS ET;
    destruct (turn_inv _ _ _ _ _ _ _ _ _ _ _ _ HS ET) as (_ & np & c & EM & Hc & _);
    destruct (m_step_ok _ _ _ _ _ _ _ _ _ _ EM) as (L1 & _ & Hnp);
    split; [congruence|];
    eapply Rle_trans; [exact HI|];
    pose proof (round flux npred nev opt it st W old st1 W1 l g 0 HS ET) as RD;
    assert (NZ : (0 < length st)%nat) by (destruct st; [cbn in Hnp; subst np; discriminate|simpl; lia]);
    assert (TT : forall j, (j < nev)%nat -> 0 < sum (length st) (fun i => fl_of flux st i j) /\ sum (length st) (fun i => fl_of flux st i j) <= INR (length st) * b) by
      (intros j _; split;
        [apply Rlt_le_trans with (fl_of flux st 0 j); [pose proof (Hab 0%nat (map p_val (concat (nth 0 st []))) j); unfold fl_of; lra|];
         apply (sum_ge (length st) (fun i => fl_of flux st i j)); [intros k1 Hk1; pose proof (Hab k1 (map p_val (concat (nth k1 st []))) j); unfold fl_of; lra|exact NZ]
        |apply sum_le_const; intros; apply Hab]);
    assert (SH : forall i j, (i < length st)%nat -> (j < nev)%nat -> / 100 < share (length st) (fl_of flux st) i j) by
      (intros i j Hi Hj; destruct (TT j Hj) as [T1 T2]; unfold share;
       apply (Rmult_lt_reg_r (sum (length st) (fun i => fl_of flux st i j))); [exact T1|];
       unfold Rdiv; rewrite Rmult_assoc, Rinv_l, Rmult_1_r by lra;
       pose proof (Hab i (map p_val (concat (nth i st []))) j) as AB; unfold fl_of in *; rewrite HL in *; lra);
    rewrite Rmult_0_l, Rminus_0_r in RD; apply RD;
    [intros i v j; pose proof (Hab i v j); lra
    |intros j Hj; apply TT, Hj
    |apply Himp
    |lra
    |intros i j Hi Hj _; split; [pose proof (Hab i (map p_val (concat (nth i st []))) j)|pose proof (Hab i (map p_val (concat (nth i st1 []))) j)]; unfold fl_of; lra
    |intros i j Hi Hj X; pose proof (SH i j Hi Hj); lra])).
  eapply K in EL; [exact (proj2 EL)| |apply zeros_sized]. split; [reflexivity|]. apply Rle_refl.
Qed.

(** The derivative the optimizer gets is the derivative of the statistic it maximises, where no flux density
    sits exactly at the cut-off. *)
Lemma sum_derive n (f : nat -> R -> R) (d : nat -> R) x : (forall j, (j < n)%nat -> is_derive (f j) x (d j)) ->
  is_derive (fun t => sum n (fun j => f j t)) x (sum n d).
Proof.
  induction n; intros H; cbn [sum].
  - apply (is_derive_const (K := R_AbsRing) (V := R_NormedModule)).
  - apply (is_derive_plus (K := R_AbsRing) (V := R_NormedModule)); [apply IHn; intros; apply H; lia|apply H; lia].
Qed.
Theorem C75_gradient : forall epsw epsf nev ws (f : nat -> R -> R) df N dN t0,
  0 <= epsf -> (nev <= length ws)%nat -> (forall j t, 0 <= f j t) ->
  (forall j, (j < nev)%nat -> is_derive (f j) t0 (df j)) -> is_derive N t0 dN ->
  (forall j, (j < nev)%nat -> epsw < nth j ws 0 -> f j t0 <> epsf) ->
  exists V d, (forall t, value epsw epsf (fun j => f j t) (N t) nev (Some ws) = Ok (V t)) /\
    deriv epsw epsf (fun j => f j t0) df dN nev (Some ws) = Ok d /\ is_derive V t0 d.
Proof.
  intros epsw epsf nev ws f df N dN t0 He Hl Hf Hd HN Hne.
  exists (fun t => sum nev (fun j => if used epsw epsf (nth j ws 0) (f j t) then nth j ws 0 * ln (f j t) else 0) - N t).
  exists (sum nev (fun j => if used epsw epsf (nth j ws 0) (f j t0) then nth j ws 0 * df j / f j t0 else 0) - dN).
  split; [intros t; apply value_ok; auto|]. split; [apply deriv_ok; auto|].
  apply (is_derive_minus (K := R_AbsRing) (V := R_NormedModule)); [|exact HN].
  apply (sum_derive nev (fun j t => if used epsw epsf (nth j ws 0) (f j t) then nth j ws 0 * ln (f j t) else 0)). intros j Hj. unfold used.
  destruct (Rltb_spec epsw (nth j ws 0)) as [Hw|Hw]; cbn [andb].
  2:{ apply (is_derive_const (K := R_AbsRing) (V := R_NormedModule)). }
  pose proof (Hne j Hj Hw) as NE. assert (CT : continuous (f j) t0) by (apply (ex_derive_continuous (K := R_AbsRing) (V := R_NormedModule)); exists (df j); auto).
  destruct (Rltb_spec epsf (f j t0)) as [HF|HF].
  - apply is_derive_ext_loc with (f := fun t => nth j ws 0 * ln (f j t)).
    + apply (CT (fun y => nth j ws 0 * ln y = if Rltb epsf y then nth j ws 0 * ln y else 0)).
      exists (mkposreal (f j t0 - epsf) ltac:(lra)). intros y Hy. unfold ball in Hy; simpl in Hy; unfold AbsRing_ball, abs, minus, plus, opp in Hy; simpl in Hy.
      destruct (Rltb_spec epsf y); [reflexivity|]. exfalso. apply Rabs_def2 in Hy. lra.
    + replace (nth j ws 0 * df j / f j t0) with (nth j ws 0 * (scal (df j) (/ f j t0))).
      2:{ unfold scal; simpl; unfold mult; simpl. field. lra. }
      apply (is_derive_scal (fun t => ln (f j t))). apply (is_derive_comp (K := R_AbsRing) (V := R_NormedModule) ln (f j)); [|apply Hd; exact Hj]. apply is_derive_ln. lra.
  - apply is_derive_ext_loc with (f := fun _ => 0).
    + apply (CT (fun y => 0 = if Rltb epsf y then nth j ws 0 * ln y else 0)).
      exists (mkposreal (epsf - f j t0) ltac:(lra)). intros y Hy. unfold ball in Hy; simpl in Hy; unfold AbsRing_ball, abs, minus, plus, opp in Hy; simpl in Hy.
      destruct (Rltb_spec epsf y); [|reflexivity]. exfalso. apply Rabs_def2 in Hy. lra.
    + apply (is_derive_const (K := R_AbsRing) (V := R_NormedModule)).
Qed.

(** The free values the optimizer sets are the free values of the source afterwards, in order; names, free flags
    and the values of fixed parameters stay.  The values of all parameters, and whole parameters, likewise. *)
Theorem C75_parameters : forall s,
  (forall xs, length xs = length (filter p_free (concat s)) ->
     exists s', setFreeParamValues_ s xs = Ok (s', []) /\ map p_val (filter p_free (concat s')) = xs /\
       Forall2 (Forall2 (fun p q => p_name p = p_name q /\ p_free p = p_free q /\ (p_free p = false -> p = q))) s s') /\
  (forall xs, length xs = length (concat s) ->
     exists s', setParamValues_ s xs = Ok (s', []) /\ map p_val (concat s') = xs /\
       map (map p_name) s' = map (map p_name) s /\ map (map p_free) s' = map (map p_free) s) /\
  (forall ps, length ps <> length (concat s) -> setParams s ps = Throw) /\
  (forall ps, List.Forall (fun f => NoDup (map p_name f)) s -> map p_name ps = map p_name (concat s) ->
     exists s', setParams s ps = Ok s' /\ concat s' = ps /\ map (@length _) s' = map (@length _) s).
Proof.
  intros s. split; [|split; [|split]].
  - intros xs H. destruct (setFree_ok s xs [] H) as (s' & A & B & C). rewrite app_nil_r in A. exists s'. auto.
  - intros xs H. destruct (setAll_ok s xs [] H) as (s' & A & B & C & D). rewrite app_nil_r in A. exists s'. auto.
  - intros ps H. unfold setParams, syncParams. destruct (Nat.eqb_spec (length ps) (length (concat s))); [contradiction|reflexivity].
  - intros ps ND EN. unfold setParams, syncParams. assert (L : length ps = length (concat s)) by (rewrite <- (map_length p_name ps), EN; apply map_length).
    rewrite L, Nat.eqb_refl. now apply setParams_out_ok.
Qed.

(** A fit changes nothing of the sources but the values of their free parameters. *)
Theorem C75_only_free_values : forall flux npred nev opt fuel o o' k,
  findMin flux npred nev opt fuel o = Some (Ok (o', k)) ->
  Forall2 (Forall2 (Forall2 (fun p q => p_name p = p_name q /\ p_free p = p_free q /\ (p_free p = false -> p = q)))) (em_src o) (em_src o').
Proof.
  intros flux npred nev opt fuel o o' k E. unfold findMin in E.
  destruct (loop flux npred nev opt fuel 0 (em_src o) _ 0) as [[[st' n]| |]|] eqn:EL; try discriminate. injection E as <- <-. cbn [em_src].
  assert (TR : forall s1 s2 s3, Forall2 (Forall2 (Forall2 same_but_value)) s1 s2 -> Forall2 (Forall2 (Forall2 same_but_value)) s2 s3 -> Forall2 (Forall2 (Forall2 same_but_value)) s1 s3).
  { intros s1 s2 s3 H. revert s3. induction H; intros s3 H3; inversion H3; subst; constructor; auto. eapply same_trans; eauto. }
  assert (RF : forall s, Forall2 (Forall2 (Forall2 same_but_value)) s s) by (induction s; constructor; auto; apply same_refl).
  refine (loop_inv flux npred nev opt (fun st => Forall2 (Forall2 (Forall2 same_but_value)) (em_src o) st) _ _ _ _ _ _ _ _ (RF _) (zeros_sized nev _) EL).
  intros it st W old st1 W1 l g P HS ET. apply (TR _ _ _ P). exact (turn_same _ _ _ _ _ _ _ _ _ _ _ _ HS ET).
Qed.

(** When the fit ends it has made at least two rounds, and the sum of the statistics of the sources, each at its
    final parameters with the weights of the last round, changed in the last round by at most a tenth of the
    tolerance for the number of free parameters. *)
Theorem C75_stops : forall flux npred nev opt fuel o o' k,
  findMin flux npred nev opt fuel o = Some (Ok (o', k)) ->
  (2 <= k <= fuel)%nat /\
  exists W v old c,
    chifunc (Z.of_nat (length (filter p_free (concat (concat (em_src o)))))) = Ok c /\
    (forall i, (i < length (em_src o'))%nat ->
       value (/ 100) (/ 10 ^ 20) (flux i (map p_val (concat (nth i (em_src o') [])))) (npred i (map p_val (concat (nth i (em_src o') [])))) nev (Some (nth i W [])) = Ok (v i)) /\
    old <> 0 /\ Rabs (sum (length (em_src o')) v - old) <= 1 / 10 * c.
Proof.
  intros flux npred nev opt fuel o o' k E. unfold findMin in E.
  destruct (loop flux npred nev opt fuel 0 (em_src o) _ 0) as [[[st' n]| |]|] eqn:EL; try discriminate. injection E as <- <-. cbn [em_src].
  assert (NF : forall st : list (list (list param)), length (filter p_free (concat (concat st))) = fold_right Nat.add 0%nat (map num_free st)).
  { induction st as [|s st IH]; [reflexivity|]. cbn [concat map fold_right]. rewrite concat_app, filter_app, app_length, IH. reflexivity. }
  rewrite NF.
  assert (K : forall fuel it st W old st' n, sized (length st) nev W -> loop flux npred nev opt fuel it st W old = Some (Ok (st', n)) ->
    (S it <= n <= it + fuel)%nat /\ (old = 0 -> (S (S it) <= n)%nat) /\
    exists W v old c, chifunc (Z.of_nat (fold_right Nat.add 0%nat (map num_free st))) = Ok c /\
    (forall i, (i < length st')%nat ->
       value (/ 100) (/ 10 ^ 20) (flux i (map p_val (concat (nth i st' [])))) (npred i (map p_val (concat (nth i st' [])))) nev (Some (nth i W [])) = Ok (v i)) /\
    old <> 0 /\ Rabs (sum (length st') v - old) <= 1 / 10 * c).
  { clear. induction fuel as [|fuel IH]; intros it st W old st' n HS E; [discriminate|]. cbn [loop] in E.
    destruct (turn flux npred nev opt it st W old) as [[[[s1 W1] l1] g]| |] eqn:ET; try discriminate.
    destruct (turn_inv _ _ _ _ _ _ _ _ _ _ _ _ HS ET) as (_ & np & c & EM & EC & EG & S1).
    pose proof (turn_same _ _ _ _ _ _ _ _ _ _ _ _ HS ET) as SM.
    destruct (m_step_ok _ _ _ _ _ _ _ _ _ _ EM) as (L1 & (v & Hv & Hm) & Hnp). destruct g.
    - destruct (IH _ _ _ _ _ _ S1 E) as (A & B & C). split; [lia|]. split; [intros; lia|]. now rewrite (all_free_same _ _ SM) in C.
    - injection E as <- <-. symmetry in EG. apply Bool.orb_false_iff in EG. destruct EG as [G1 G2]. split; [lia|].
      assert (NZ : old <> 0) by (destruct (Reqb_spec old 0); [discriminate|assumption]). split; [intros; contradiction|].
      exists W1, v, old, c. subst np. split; [exact EC|]. rewrite L1. split; [intros i Hi; apply (Hm i Hi)|]. split; [exact NZ|].
      rewrite <- Hv. destruct (Rltb_spec (1 / 10 * c) (Rabs (l1 - old))); [discriminate|lra]. }
  destruct (K _ _ _ _ _ _ _ (zeros_sized nev (em_src o)) EL) as (A & B & C). specialize (B eq_refl). split; [lia|exact C].
Qed.

(** With nothing free there is nothing to fit: the call throws. *)
Theorem C75_nothing_free : forall flux npred nev opt fuel o,
  (forall i v j, 0 <= flux i v j) -> filter p_free (concat (concat (em_src o))) = [] -> (0 < fuel)%nat ->
  findMin flux npred nev opt fuel o = Some Throw.
Proof.
  intros flux npred nev opt [|fuel] o H0 HF Hf; [lia|]. unfold findMin. cbn [loop].
  assert (NF : List.Forall (fun s => num_free s = 0%nat) (em_src o)).
  { clear - HF. induction (em_src o) as [|s st IH]; constructor; cbn [concat] in HF; rewrite concat_app, filter_app in HF; apply app_eq_nil in HF; destruct HF as [A B].
    - unfold num_free, syncParams. now rewrite A.
    - now apply IH. }
  unfold turn. destruct (e_step_ok flux (em_src o) nev _ (zeros_sized nev (em_src o))) as (W' & E & S' & _). rewrite E. cbn [obind].
  assert (M : exists l, m_step flux npred nev opt 0 (em_src o) W' = Ok (em_src o, l, 0%nat)).
  { unfold m_step. assert (K : forall k, (k <= length (em_src o))%nat -> exists l, mfold (m_source flux npred nev opt 0 W') (seq 0 k) (em_src o, 0, 0%nat) = Ok (em_src o, l, 0%nat)).
    { induction k; intros Hk; [exists 0; reflexivity|]. destruct IHk as (l & EK); [lia|]. rewrite EmProofs.seq_S, mfold_snoc, EK. cbn [obind]. unfold m_source.
      rewrite (vec_get_ok (em_src o) k []) by lia. cbn [obind]. destruct S' as [SL SR]. rewrite (vec_get_ok W' k []) by lia. cbn [obind].
      assert (Z : num_free (nth k (em_src o) []) = 0%nat) by (rewrite Forall_forall in NF; apply NF, nth_In; lia). rewrite Z. cbn [Nat.ltb Nat.leb obind].
      rewrite value_ok; [|left; apply small_pos|intros; apply H0|rewrite SR by lia; lia]. cbn [obind]. eexists. do 3 f_equal.
      apply list_ext_nth with (d := []); [apply upd_length|]. intros i Hi. destruct (Nat.eq_dec i k) as [->|]; [now rewrite nth_upd_eq by lia|now rewrite nth_upd_neq by lia]. }
    apply K. lia. }
  destruct M as (l & ->). cbn [obind]. reflexivity.
Qed.

(** The tolerance exceeds one and grows with the number of free parameters, up to 1200 of them. *)
Lemma chi_ge10 n : (10 <= n)%Z -> chifunc n = Ok (chi_big (IZR (n - 255) / (1415951 / 10000))).
Proof. intros H. unfold chifunc. destruct (Z.leb_spec n 0); [lia|]. destruct (Z.ltb_spec n 10); [lia|reflexivity]. Qed.
Lemma chi_lt10 n : (0 < n < 10)%Z -> chifunc n = Ok (- (2265 / 10000) + IZR n * (12719 / 10000 + IZR n * (- (97 / 10000)))).
Proof. intros H. unfold chifunc. destruct (Z.leb_spec n 0); [lia|]. destruct (Z.ltb_spec n 10); [reflexivity|lia]. Qed.
Theorem C75_tolerance :
  (forall n, (n <= 0)%Z -> chifunc n = Throw) /\
  (forall n, (1 <= n <= 1200)%Z -> exists c, chifunc n = Ok c /\ 1 < c) /\
  (forall n m, (1 <= n < m)%Z -> (m <= 1200)%Z -> exists c d, chifunc n = Ok c /\ chifunc m = Ok d /\ c < d).
Proof.
  assert (MONO : forall n m, (1 <= n < m)%Z -> (m <= 1200)%Z -> exists c d, chifunc n = Ok c /\ chifunc m = Ok d /\ c < d).
  { assert (BIG : forall n m, (10 <= n < m)%Z -> (m <= 1200)%Z -> chi_big (IZR (n - 255) / (1415951 / 10000)) < chi_big (IZR (m - 255) / (1415951 / 10000))).
    { intros n m [A B] C. apply IZR_lt in B. apply IZR_le in A, C. rewrite !minus_IZR. apply chi_big_incr; lra. }
    assert (SMALL : forall n m, (1 <= n < m)%Z -> (m < 10)%Z -> - (2265 / 10000) + IZR n * (12719 / 10000 + IZR n * (- (97 / 10000))) < - (2265 / 10000) + IZR m * (12719 / 10000 + IZR m * (- (97 / 10000)))).
    { intros n m [A B] C. apply IZR_lt in B, C. apply IZR_le in A. nra. }
    intros n m [A B] C. destruct (Z.lt_ge_cases m 10).
    - rewrite !chi_lt10 by lia. do 2 eexists. do 2 (split; [reflexivity|]). apply SMALL; lia.
    - destruct (Z.lt_ge_cases n 10).
      + rewrite chi_lt10, chi_ge10 by lia. do 2 eexists. do 2 (split; [reflexivity|]).
        assert (N : - (2265 / 10000) + IZR n * (12719 / 10000 + IZR n * (- (97 / 10000))) <= 12).
        { assert (P1 : (1 <= n)%Z) by lia. assert (P2 : (n <= 9)%Z) by lia. apply IZR_le in P1, P2. nra. }
        assert (M0 : 12 < chi_big (IZR (10 - 255) / (1415951 / 10000))) by (unfold chi_big; cbn [Z.sub Z.opp Z.add Z.pos_sub Pos.pred_double]; simpl; lra).
        destruct (Z.eq_dec m 10) as [->|]; [lra|]. pose proof (BIG 10%Z m ltac:(lia) C). lra.
      + rewrite !chi_ge10 by lia. do 2 eexists. do 2 (split; [reflexivity|]). apply BIG; lia. }
  split; [|split; [|exact MONO]].
  - intros n H. unfold chifunc. destruct (Z.leb_spec n 0); [reflexivity|lia].
  - intros n H. assert (C1 : exists c, chifunc 1 = Ok c /\ 1 < c) by (rewrite chi_lt10 by lia; eexists; split; [reflexivity|lra]).
    destruct (Z.eq_dec n 1) as [->|]; [exact C1|]. destruct (MONO 1%Z n ltac:(lia) ltac:(lia)) as (c & d & E1 & E2 & L). destruct C1 as (c' & E1' & L1).
    rewrite E1 in E1'. injection E1' as <-. exists d. split; [exact E2|lra].
Qed.

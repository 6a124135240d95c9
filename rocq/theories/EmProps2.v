(** C175: what the fit by expectation maximisation does not do. *)
From Coq Require Import Reals Lra Lia.
From Verif Require Import Base AccumModel AccumProofs EmModel EmSpec EmProofs EmProofs2 EmProofs3 EmProps.
Local Open Scope R_scope.

(** The optimizer finds, for every source, the best of all free values. *)
Definition best flux npred nev (opt : nat -> nat -> list R -> list (list param) -> list R) (it : nat) (st : list (list (list param))) (W' : list (list R)) : Prop :=
  forall i xs s1 r1 s' rest a b, (i < length st)%nat ->
  setFreeParamValues_ (nth i st []) xs = Ok (s1, r1) ->
  setFreeParamValues_ (nth i st []) (opt it i (nth i W' []) (nth i st [])) = Ok (s', rest) ->
  value (/ 100) (/ 10 ^ 20) (flux i (map p_val (concat s1))) (npred i (map p_val (concat s1))) nev (Some (nth i W' [])) = Ok a ->
  value (/ 100) (/ 10 ^ 20) (flux i (map p_val (concat s'))) (npred i (map p_val (concat s'))) nev (Some (nth i W' [])) = Ok b ->
  a <= b.

Definition fluxA (i : nat) (v : list R) (j : nat) : R := match i with O => 199 / 2 | _ => match v with [x] => x * x / 2 | _ => 0 end end.
Definition npredA (i : nat) (v : list R) : R := match i with O => 0 | _ => match v with [x] => x * x / 1000 | _ => 0 end end.
Definition opt0 (it i : nat) (ws : list R) (s : list (list param)) : list R := repeat 0 (num_free s).
Definition stA : list (list (list param)) := [[[mk_par 0 1 false]]; [[mk_par 0 1 true]]].

Lemma fluxA_pos i v j : 0 <= fluxA i v j.
Proof. unfold fluxA. destruct i; [lra|]. destruct v as [|x [|]]; try lra. assert (0 <= x * x) by apply Rle_0_sqr. lra. Qed.
Lemma opt0_len it i ws s : length (opt0 it i ws s) = num_free s.
Proof. apply repeat_length. Qed.

(** A source that is faint in every event is fitted away: pairs of at most one per cent are ignored, so only the
    predicted counts of the source remain in its statistic, and even an optimizer that finds the best values of
    every source lowers the log-likelihood. *)
Theorem C75_faint_source_refuted :
  exists flux npred nev opt it st W old st' W' logL go,
    sized (length st) nev W /\ turn flux npred nev opt it st W old = Ok (st', W', logL, go) /\
    (forall i v j, 0 <= flux i v j) /\
    (forall j, (j < nev)%nat -> 0 < sum (length st) (fun i => flux i (map p_val (concat (nth i st []))) j)) /\
    best flux npred nev opt it st W' /\
    loglike (length st') nev (fun i j => flux i (map p_val (concat (nth i st' []))) j) (fun i => npred i (map p_val (concat (nth i st' []))))
    < loglike (length st) nev (fun i j => flux i (map p_val (concat (nth i st []))) j) (fun i => npred i (map p_val (concat (nth i st [])))).
Proof.
  pose proof (zeros_sized 1 stA) as HS.
  destruct (turn_total fluxA npredA 1 opt0 0 stA (map (fun _ => repeat 0 1) stA) 0 fluxA_pos HS opt0_len ltac:(cbn; lia)) as (st' & W' & l & g & ET).
  destruct (turn_inv _ _ _ _ _ _ _ _ _ _ _ _ HS ET) as (EE & np & c & EM & _).
  destruct (e_step_ok fluxA stA 1 _ HS) as (W2 & EE' & [SL SR] & CW). rewrite EE in EE'. injection EE' as <-.
  destruct (m_step_ok _ _ _ _ _ _ _ _ _ _ EM) as (L & (v & _ & Hm) & _).
  assert (S0 : nth 0 st' [] = [[mk_par 0 1 false]]).
  { destruct (Hm 0%nat ltac:(cbn; lia)) as ([[_ E]|[H _]] & _); [exact E|]. cbn in H. lia. }
  assert (S1 : nth 1 st' [] = [[mk_par 0 0 true]]).
  { destruct (Hm 1%nat ltac:(cbn; lia)) as ([[H _]|[_ (r & E)]] & _); [cbn in H; lia|]. cbn in E. injection E as <- _. reflexivity. }
  assert (W1 : nth 0 (nth 1 W' []) 0 = / 200).
  { pose proof (CW 1%nat 0%nat ltac:(cbn; lia) ltac:(lia)) as C. unfold cell in C. rewrite C. unfold share, fl. cbn.
    destruct (Rltb_spec 0 (0 + 199 / 2 + 1 * 1 / 2)); lra. }
  exists fluxA, npredA, 1%nat, opt0, 0%nat, stA, (map (fun _ => repeat 0 1) stA), 0, st', W', l, g.
  split; [exact HS|]. split; [exact ET|]. split; [exact fluxA_pos|]. split; [intros j Hj; cbn; lra|]. split.
  - intros i xs s1 r1 s' rest a b Hi E1 E2 V1 V2. destruct i as [|[|i]]; [| |cbn in Hi; lia].
    + cbn in E1, E2. injection E1 as <- _. injection E2 as <- _. cbn [nth] in *. cbn [concat map p_val app] in V1, V2. rewrite V1 in V2. injection V2 as ->. lra.
    + cbn in E1, E2. destruct xs as [|x xs]; [discriminate|]. cbn in E1. injection E1 as <- _. injection E2 as <- _. cbn [concat map p_val app set_val] in V1, V2.
      rewrite value_ok in V1; [|left; apply small_pos|intros; apply fluxA_pos|rewrite SR; cbn; lia].
      rewrite value_ok in V2; [|left; apply small_pos|intros; apply fluxA_pos|rewrite SR; cbn; lia].
      cbn [sum] in V1, V2. unfold used in V1, V2. rewrite W1 in V1, V2.
      destruct (Rltb_spec (/ 100) (/ 200)) in V1; [lra|]. destruct (Rltb_spec (/ 100) (/ 200)) in V2; [lra|]. cbn in V1, V2. injection V1 as <-. injection V2 as <-.
      assert (0 <= x * x) by apply Rle_0_sqr. lra.
  - rewrite L. unfold loglike. cbn [sum length stA]. rewrite S0, S1. cbn.
    replace (0 + 199 / 2 + 0 * 0 / 2) with (199 / 2) by lra. replace (0 + 199 / 2 + 1 * 1 / 2) with 100 by lra.
    assert (Q : ln (199 / 2) = ln (199 / 200) + ln 100) by (rewrite <- ln_mult by lra; f_equal; lra).
    pose proof (ln_le_sub (199 / 200) ltac:(lra)). lra.
Qed.

(** A flux density below 1e-20 is ignored as if its logarithm were zero, which is better than the logarithm of
    any flux density below one: the best values by the statistic make the data impossible. *)
Definition fluxB (i : nat) (v : list R) (j : nat) : R := match v with [x] => Rmin (Rabs x) (1 / 2) | _ => 0 end.
Definition npredB (i : nat) (v : list R) : R := 0.
Definition tinyB : R := / 10 ^ 21.
Definition optB (it i : nat) (ws : list R) (s : list (list param)) : list R := repeat (tinyB) (num_free s).
Definition stB : list (list (list param)) := [[[mk_par 0 (1 / 2) true]]].
Lemma fluxB_pos i v j : 0 <= fluxB i v j.
Proof. unfold fluxB. destruct v as [|x [|]]; try lra. apply Rmin_glb; [apply Rabs_pos|lra]. Qed.
Theorem C75_vanishing_flux_refuted :
  exists flux npred nev opt it st W old st' W' logL go,
    sized (length st) nev W /\ turn flux npred nev opt it st W old = Ok (st', W', logL, go) /\
    (forall i v j, 0 <= flux i v j) /\
    (forall j, (j < nev)%nat -> 0 < sum (length st) (fun i => flux i (map p_val (concat (nth i st []))) j)) /\
    (forall i j, (i < length st)%nat -> (j < nev)%nat -> / 100 < share (length st) (fun i j => flux i (map p_val (concat (nth i st []))) j) i j) /\
    best flux npred nev opt it st W' /\
    loglike (length st') nev (fun i j => flux i (map p_val (concat (nth i st' []))) j) (fun i => npred i (map p_val (concat (nth i st' []))))
    < loglike (length st) nev (fun i j => flux i (map p_val (concat (nth i st []))) j) (fun i => npred i (map p_val (concat (nth i st [])))).
Proof.
  pose proof (zeros_sized 1 stB) as HS.
  destruct (turn_total fluxB npredB 1 optB 0 stB (map (fun _ => repeat 0 1) stB) 0 fluxB_pos HS ltac:(intros; apply repeat_length) ltac:(cbn; lia)) as (st' & W' & l & g & ET).
  destruct (turn_inv _ _ _ _ _ _ _ _ _ _ _ _ HS ET) as (EE & np & c & EM & _).
  destruct (e_step_ok fluxB stB 1 _ HS) as (W2 & EE' & [SL SR] & CW). rewrite EE in EE'. injection EE' as <-.
  destruct (m_step_ok _ _ _ _ _ _ _ _ _ _ EM) as (L & (v & _ & Hm) & _).
  assert (S1 : nth 0 st' [] = [[mk_par 0 (tinyB) true]]).
  { destruct (Hm 0%nat ltac:(cbn; lia)) as ([[H _]|[_ (r & E)]] & _); [cbn in H; lia|]. unfold optB in E. cbn [num_free syncParams stB nth concat app filter p_free length repeat setFreeParamValues_ f_setFree obind fst snd set_val] in E.
    injection E as <- _. reflexivity. }
  assert (FB : fluxB 0 [1 / 2] 0 = 1 / 2) by (unfold fluxB; rewrite Rabs_pos_eq by lra; apply Rmin_left; lra).
  assert (P21 : 0 < tinyB /\ tinyB <= / 10 ^ 20).
  { unfold tinyB. split; [apply Rinv_0_lt_compat, pow_lt; lra|]. apply Rinv_le_contravar; [apply pow_lt; lra|]. apply Rle_pow; [lra|lia]. }
  assert (P22 : tinyB < 1 / 4). { unfold tinyB. apply (Rmult_lt_reg_l (10 ^ 21)); [apply pow_lt; lra|]. rewrite Rinv_r by (apply pow_nonzero; lra). assert (10 ^ 1 <= 10 ^ 21) by (apply Rle_pow; [lra|lia]). lra. }
  assert (FV : fluxB 0 [tinyB] 0 = tinyB) by (unfold fluxB; rewrite Rabs_pos_eq by lra; apply Rmin_left; lra).
  assert (W1 : nth 0 (nth 0 W' []) 0 = 1).
  { pose proof (CW 0%nat 0%nat ltac:(cbn; lia) ltac:(lia)) as C. unfold cell in C. rewrite C. unfold share, fl, values, syncParams. cbn [stB length nth sum concat app map p_val]. rewrite FB.
    destruct (Rltb_spec 0 (0 + 1 / 2)); lra. }
  exists fluxB, npredB, 1%nat, optB, 0%nat, stB, (map (fun _ => repeat 0 1) stB), 0, st', W', l, g.
  split; [exact HS|]. split; [exact ET|]. split; [exact fluxB_pos|].
  split; [intros j Hj; destruct j; [|lia]; cbn [stB length sum nth concat app map p_val]; rewrite FB; lra|].
  split; [intros i j Hi Hj; destruct i; [|cbn in Hi; lia]; destruct j; [|lia]; unfold share; cbn [stB length sum nth concat app map p_val]; rewrite FB; lra|]. split.
  - intros i xs s1 r1 s' rest a b Hi E1 E2 V1 V2. destruct i as [|i]; [|cbn in Hi; lia].
    destruct xs as [|x xs]; [discriminate|]. cbn in E1. injection E1 as <- _.
    unfold optB in E2. cbn [num_free syncParams stB nth concat app filter p_free length repeat setFreeParamValues_ f_setFree obind fst snd set_val] in E2. injection E2 as <- _.
    cbn [concat map p_val app set_val p_name p_free] in V1, V2.
    rewrite value_ok in V1; [|left; apply small_pos|intros; apply fluxB_pos|rewrite SR; cbn; lia].
    rewrite value_ok in V2; [|left; apply small_pos|intros; apply fluxB_pos|rewrite SR; cbn; lia].
    cbn [sum] in V1, V2. unfold used in V1, V2. rewrite W1 in V1, V2. rewrite FV in V2. unfold npredB in V1, V2.
    destruct (Rltb_spec (/ 10 ^ 20) (tinyB)) in V2; [lra|]. rewrite Bool.andb_false_r in V2. injection V2 as <-.
    assert (FL : fluxB 0 [x] 0 <= 1 / 2) by apply Rmin_r.
    destruct (Rltb_spec (/ 100) 1) in V1; [|lra]. cbn [andb] in V1. pose proof small_pos.
    destruct (Rltb_spec (/ 10 ^ 20) (fluxB 0 [x] 0)) as [HP|HP] in V1; injection V1 as <-; [|lra].
    pose proof (ln_le_sub (fluxB 0 [x] 0) (Rlt_trans _ _ _ small_pos HP)) as LL. unfold fluxB in LL, FL.
    lra.
  - rewrite L. unfold loglike. cbn [sum length stB nth concat app map p_val]. rewrite S1. cbn [concat app map p_val]. rewrite FB, FV. unfold npredB.
    assert (ln (0 + tinyB) < ln (0 + 1 / 2)) by (apply ln_increasing; lra). lra.
Qed.

(** A fit that does not end: with no events and no predicted counts the sum of the statistics is zero, which the
    loop takes for the mark of the first round. *)
Theorem C75_no_events_refuted :
  exists flux npred nev opt o, filter p_free (concat (concat (em_src o))) <> [] /\
    forall fuel, findMin flux npred nev opt fuel o = None.
Proof.
  exists fluxA, (fun _ _ => 0), 0%nat, opt0, (mk_em [[[mk_par 0 0 true]]] [mk_par 0 0 true] [0]). split; [discriminate|]. intros fuel. unfold findMin. cbn [em_src map repeat].
  assert (K : forall fuel it, loop fluxA (fun _ _ => 0) 0 opt0 fuel it [[[mk_par 0 0 true]]] [[]] 0 = None).
  { clear. induction fuel; intros it; [reflexivity|]. cbn [loop].
    assert (E : turn fluxA (fun _ _ => 0) 0 opt0 it [[[mk_par 0 0 true]]] [[]] 0 = Ok ([[[mk_par 0 0 true]]], [[]], 0, true)).
    { unfold turn, e_step. cbn [seq mfold obind]. unfold m_step. cbn [length seq mfold]. unfold m_source.
      cbn [vec_get nth_error obind num_free syncParams concat app filter p_free length Nat.ltb Nat.leb opt0 repeat setFreeParamValues_ f_setFree fst snd set_val p_name].
      unfold value. cbn [seq mfold obind upd Nat.add]. unfold opt0. cbn. destruct (Reqb_spec 0 0) as [_|NE]; [|congruence]. rewrite Bool.orb_true_r. repeat f_equal. lra. }
    rewrite E. apply IHfuel. }
  now rewrite K.
Qed.

(** A fit with 2000 or more free parameters never ends: the tolerance is negative. *)
Theorem C75_many_parameters_refuted : forall flux npred nev opt o,
  (forall i v j, 0 <= flux i v j) -> (forall it i ws s, length (opt it i ws s) = length (filter p_free (concat s))) ->
  (2000 <= length (filter p_free (concat (concat (em_src o)))))%nat ->
  forall fuel, findMin flux npred nev opt fuel o = None.
Proof.
  intros flux npred nev opt o H0 Ho Hn fuel. unfold findMin.
  assert (NF : forall st : list (list (list param)), length (filter p_free (concat (concat st))) = fold_right Nat.add 0%nat (map num_free st)).
  { induction st as [|s st IH]; [reflexivity|]. cbn [concat map fold_right]. rewrite concat_app, filter_app, app_length, IH. reflexivity. }
  rewrite NF in Hn.
  assert (K : forall fuel it st W old, sized (length st) nev W -> (2000 <= fold_right Nat.add 0%nat (map num_free st))%nat -> loop flux npred nev opt fuel it st W old = None).
  { clear - H0 Ho. induction fuel; intros it st W old HS Hn; [reflexivity|]. cbn [loop].
    destruct (turn_total flux npred nev opt it st W old H0 HS Ho ltac:(lia)) as (st' & W' & l & g & ET). rewrite ET.
    destruct (turn_inv _ _ _ _ _ _ _ _ _ _ _ _ HS ET) as (_ & np & c & EM & EC & EG & S1).
    destruct (m_step_ok _ _ _ _ _ _ _ _ _ _ EM) as (_ & _ & Hnp). pose proof (turn_same _ _ _ _ _ _ _ _ _ _ _ _ HS ET) as SM.
    assert (G : g = true).
    { rewrite EG. apply Bool.orb_true_iff. left. rewrite chi_ge10 in EC by lia. injection EC as <-.
      assert (C : chi_big (IZR (Z.of_nat np - 255) / (1415951 / 10000)) < 0).
      { assert (N : (2000 <= Z.of_nat np)%Z) by lia. apply IZR_le in N. rewrite minus_IZR.
        replace ((IZR (Z.of_nat np) - 255) / (1415951 / 10000)) with (123 / 10 + ((IZR (Z.of_nat np) - 255) / (1415951 / 10000) - 123 / 10)) by lra. apply chi_big_neg. lra. }
      pose proof (Rabs_pos (l - old)).
      destruct (Rltb_spec (1 / 10 * chi_big (IZR (Z.of_nat np - 255) / (1415951 / 10000))) (Rabs (l - old))); [reflexivity|lra]. }
    rewrite G. apply IHfuel; [exact S1|]. now rewrite (all_free_same _ _ SM). }
  rewrite K; auto. apply zeros_sized.
Qed.

(** After a fit the object still has its old list of parameters and its old predicted counts, so both its
    parameters and its log-likelihood are wrong until something else refreshes them. *)
Theorem C75_stale_refuted :
  exists flux npred nev opt o fuel o' k a b,
    sync npred o = o /\ findMin flux npred nev opt fuel o = Some (Ok (o', k)) /\
    map p_val (em_par o') <> map p_val (concat (concat (em_src o'))) /\
    ll_value flux nev o' = Ok a /\ ll_value flux nev (sync npred o') = Ok b /\ a < b.
Proof.
  set (np := fun (i : nat) (v : list R) => match v with [x] => x * x + 1 | _ => 0 end).
  exists fluxA, np, 0%nat, opt0, (mk_em [[[mk_par 0 2 true]]] [mk_par 0 2 true] [5]), 5%nat, (mk_em [[[mk_par 0 0 true]]] [mk_par 0 2 true] [5]), 2%nat, (-5), (-1).
  assert (T : forall it x old, turn fluxA np 0 opt0 it [[[mk_par 0 x true]]] [[]] old =
     obind (chifunc 1) (fun c => Ok ([[[mk_par 0 0 true]]], [[]], -1, Rltb (1 / 10 * c) (Rabs (-1 - old)) || Reqb old 0))).
  { intros it x old. unfold turn, e_step. cbn [seq mfold obind]. unfold m_step. cbn [length seq mfold]. unfold m_source.
    cbn [vec_get nth_error obind num_free syncParams concat app filter p_free length Nat.ltb Nat.leb opt0 repeat setFreeParamValues_ f_setFree fst snd set_val p_name].
    unfold value, set_val. cbn [seq mfold obind upd Nat.add p_name p_free]. unfold values, np. cbn [syncParams concat app map p_val obind].
    replace (0 + (0 - (0 * 0 + 1))) with (-1) by lra. reflexivity. }
  split; [unfold sync; cbn; repeat f_equal; lra|]. split.
  - unfold findMin. cbn [em_src map repeat em_par em_np loop]. rewrite T. rewrite chi_lt10 by lia. cbn [obind].
    destruct (Reqb_spec 0 0) as [_|NE]; [|congruence]. rewrite Bool.orb_true_r. cbn [loop]. rewrite T, chi_lt10 by lia. cbn [obind].
    replace (-1 - -1) with 0 by lra. rewrite Rabs_R0.
    destruct (Rltb_spec (1 / 10 * (- (2265 / 10000) + IZR 1 * (12719 / 10000 + IZR 1 * - (97 / 10000)))) 0); [lra|].
    destruct (Reqb_spec (-1) 0); [lra|]. reflexivity.
  - split; [cbn; intros H; injection H; lra|]. split; [|split; [|lra]].
    + unfold ll_value. cbn. f_equal. lra.
    + unfold ll_value, sync, np. cbn. f_equal. lra.
Qed.

(** The tolerance for 10 free parameters is called the chi-squared value of cumulative probability 0.683; that
    probability is more than 0.72. *)
Lemma exp_double y a : 0 <= a -> a <= exp y -> a * a <= exp (2 * y).
Proof. intros A B. replace (2 * y) with (y + y) by lra. rewrite exp_plus. apply Rmult_le_compat; lra. Qed.
Theorem C75_quantile_refuted :
  exists c, chifunc 10 = Ok c /\ chi2_cdf_even 5 c > 72 / 100.
Proof.
  rewrite chi_ge10 by lia. eexists. split; [reflexivity|].
  set (c := chi_big (IZR (10 - 255) / (1415951 / 10000))).
  assert (CB : 12468 / 1000 <= c <= 12470 / 1000).
  { unfold c, chi_big. simpl. lra. }
  set (y := c / 2). assert (YB : 6234 / 1000 <= y <= 6235 / 1000) by (unfold y; lra).
  unfold chi2_cdf_even. fold y.
  assert (E0 : 1 + 6234 / 1000 / 512 <= exp (6234 / 1000 / 512)) by apply exp_ineq1_le.
  assert (E1 : 101217 / 100000 <= exp (6234 / 1000 / 512)) by lra.
  apply exp_double in E1; [|lra]. assert (E2 : 10244 / 10000 <= exp (2 * (6234 / 1000 / 512))) by lra.
  apply exp_double in E2; [|lra]. assert (E3 : 10493 / 10000 <= exp (2 * (2 * (6234 / 1000 / 512)))) by lra.
  apply exp_double in E3; [|lra]. assert (E4 : 11010 / 10000 <= exp (2 * (2 * (2 * (6234 / 1000 / 512))))) by lra.
  apply exp_double in E4; [|lra]. assert (E5 : 12122 / 10000 <= exp (2 * (2 * (2 * (2 * (6234 / 1000 / 512)))))) by lra.
  apply exp_double in E5; [|lra]. assert (E6 : 14694 / 10000 <= exp (2 * (2 * (2 * (2 * (2 * (6234 / 1000 / 512))))))) by lra.
  apply exp_double in E6; [|lra]. assert (E7 : 2159 / 1000 <= exp (2 * (2 * (2 * (2 * (2 * (2 * (6234 / 1000 / 512)))))))) by lra.
  apply exp_double in E7; [|lra]. assert (E8 : 466 / 100 <= exp (2 * (2 * (2 * (2 * (2 * (2 * (2 * (6234 / 1000 / 512))))))))) by lra.
  apply exp_double in E8; [|lra]. assert (E9 : 2171 / 100 <= exp (2 * (2 * (2 * (2 * (2 * (2 * (2 * (2 * (6234 / 1000 / 512)))))))))) by lra.
  apply exp_double in E9; [|lra].
  replace (2 * (2 * (2 * (2 * (2 * (2 * (2 * (2 * (2 * (6234 / 1000 / 512)))))))))) with (6234 / 1000) in E9 by field.
  assert (EY : 471 <= exp y). { apply Rle_trans with (exp (6234 / 1000)); [lra|]. destruct (proj1 YB) as [H|H]; [left; now apply exp_increasing|rewrite H; lra]. }
  rewrite exp_Ropp.
  assert (IY : / exp y <= / 471) by (apply Rinv_le_contravar; lra). assert (IP : 0 < / exp y) by (apply Rinv_0_lt_compat; lra).
  set (S := sum 5 (fun m => y ^ m / INR (fact m))).
  assert (SB : 0 <= S <= 131).
  { unfold S. cbn [sum]. cbn [fact Nat.mul Nat.add]. simpl INR. simpl pow.
    assert (Y2 : 0 <= y * y <= 38876 / 1000) by nra. assert (Y3 : 0 <= y * (y * y) <= 2424 / 10) by nra. assert (Y4 : 0 <= y * (y * (y * y)) <= 15114 / 10) by nra.
    lra. }
  assert (/ exp y * S <= / 471 * 131). { apply Rmult_le_compat; lra. } lra.
Qed.

(** ** Cases *)
Definition fluxC (i : nat) (v : list R) (j : nat) : R := match v with [x] => 1 + / (1 + x * x) | _ => 2 end.
Definition npredC (i : nat) (v : list R) : R := match v with [x] => x * x | _ => 0 end.
Definition stC (x : R) : list (list (list param)) := [[[mk_par 0 x true]]; [[mk_par 0 0 false]]].
Lemma fluxC_range i v j : 1 <= fluxC i v j <= 2.
Proof.
  unfold fluxC. destruct v as [|x [|]]; try lra. assert (0 <= x * x) by apply Rle_0_sqr. assert (0 < / (1 + x * x)) by (apply Rinv_0_lt_compat; lra).
  assert (/ (1 + x * x) <= / 1) by (apply Rinv_le_contravar; lra). lra.
Qed.
Lemma turnC it x W old : sized 2 1 W -> exists W', sized 2 1 W' /\
  turn fluxC npredC 1 opt0 it (stC x) W old = obind (chifunc 1) (fun c => Ok (stC 0, W', ln 2, Rltb (1 / 10 * c) (Rabs (ln 2 - old)) || Reqb old 0)).
Proof.
  intros HS. change (sized (length (stC x)) 1 W) in HS. assert (FP : forall i v j, 0 <= fluxC i v j) by (intros i v j; pose proof (fluxC_range i v j); lra).
  destruct (turn_total fluxC npredC 1 opt0 it (stC x) W old FP HS opt0_len ltac:(cbn; lia)) as (st' & W' & l & g & ET).
  destruct (turn_inv _ _ _ _ _ _ _ _ _ _ _ _ HS ET) as (EE & np & c & EM & EC & EG & SW).
  destruct (e_step_ok fluxC (stC x) 1 _ HS) as (W2 & EE' & [SL SR] & CW). rewrite EE in EE'. injection EE' as <-.
  destruct (m_step_ok _ _ _ _ _ _ _ _ _ _ EM) as (L & (v & Hv & Hm) & Hnp).
  assert (S0 : nth 0 st' [] = [[mk_par 0 0 true]]).
  { destruct (Hm 0%nat ltac:(cbn; lia)) as ([[H _]|[_ (r & E)]] & _); [cbn in H; lia|]. cbn in E. injection E as <- _. reflexivity. }
  assert (S1 : nth 1 st' [] = [[mk_par 0 0 false]]).
  { destruct (Hm 1%nat ltac:(cbn; lia)) as ([[_ E]|[H _]] & _); [exact E|cbn in H; lia]. }
  assert (ES : st' = stC 0).
  { destruct st' as [|a [|b [|]]]; try discriminate. cbn in S0, S1. now subst. }
  subst st'. cbn in Hnp. subst np. exists W'. split; [exact SW|]. rewrite ET. change (Z.of_nat 1) with 1%Z in EC. rewrite EC. cbn [obind].
  assert (EL : l = ln 2).
  { rewrite Hv. cbn [length stC sum]. destruct (Hm 0%nat ltac:(cbn; lia)) as (_ & V0). destruct (Hm 1%nat ltac:(cbn; lia)) as (_ & V1). rewrite S0 in V0. rewrite S1 in V1.
    rewrite value_ok in V0; [|left; apply small_pos|intros; apply FP|rewrite SR; cbn; lia]. rewrite value_ok in V1; [|left; apply small_pos|intros; apply FP|rewrite SR; cbn; lia].
    pose proof (CW 0%nat 0%nat ltac:(cbn; lia) ltac:(lia)) as C0. pose proof (CW 1%nat 0%nat ltac:(cbn; lia) ltac:(lia)) as C1. unfold cell in C0, C1.
    unfold values, syncParams, npredC in V0, V1. cbn [sum concat app map p_val] in V0, V1.
    assert (F2 : forall i, fluxC i [0] 0 = 2) by (intros; unfold fluxC; rewrite Rmult_0_l, Rplus_0_r, Rinv_1; lra). rewrite F2 in V0, V1.
    unfold share, fl, values, syncParams in C0, C1. cbn [length stC sum nth concat app map p_val] in C0, C1. rewrite F2 in C0, C1.
    pose proof (fluxC_range 0 [x] 0) as FR. set (q := fluxC 0 [x] 0) in *.
    destruct (Rltb_spec 0 (0 + q + 2)) in C0; [|lra]. destruct (Rltb_spec 0 (0 + q + 2)) in C1; [|lra].
    rewrite C0 in V0. rewrite C1 in V1. unfold used in V0, V1.
    assert (B0 : / 100 < q / (0 + q + 2)). { apply (Rmult_lt_reg_r (0 + q + 2)); [lra|]. unfold Rdiv. rewrite Rmult_assoc, Rinv_l by lra. lra. }
    assert (B1 : / 100 < 2 / (0 + q + 2)). { apply (Rmult_lt_reg_r (0 + q + 2)); [lra|]. unfold Rdiv. rewrite Rmult_assoc, Rinv_l by lra. lra. }
    assert (B2 : / 10 ^ 20 < 2). { apply (Rmult_lt_reg_l (10 ^ 20)); [apply pow_lt; lra|]. rewrite Rinv_r by (apply pow_nonzero; lra). assert (10 ^ 1 <= 10 ^ 20) by (apply Rle_pow; [lra|lia]). lra. }
    destruct (Rltb_spec (/ 100) (q / (0 + q + 2))) in V0; [|lra]. destruct (Rltb_spec (/ 100) (2 / (0 + q + 2))) in V1; [|lra].
    destruct (Rltb_spec (/ 10 ^ 20) 2) as [_|NB] in V0, V1; [|contradiction]. cbn [andb] in V0, V1. injection V0 as <-. injection V1 as <-. field. lra. }
  rewrite EG, EL. reflexivity.
Qed.

Example C75_case_fit :
  findMin fluxC npredC 1 opt0 5 (mk_em (stC 1) [] []) = Some (Ok (mk_em (stC 0) [] [], 2%nat)) /\
  / 10 ^ 20 < 1 /\ (forall i v j, 1 <= fluxC i v j <= 2) /\ INR (length (em_src (mk_em (stC 1) [] []))) * 2 < 100 * 1 /\
  (forall it st W', improves fluxC npredC 1 opt0 it st W').
Proof.
  split; [|split; [|split; [exact fluxC_range|split; [cbn; lra|]]]].
  - unfold findMin. cbn [em_src em_par em_np]. pose proof (zeros_sized 1 (stC 1)) as HS. cbn [loop].
    destruct (turnC 0 1 _ 0 HS) as (W1 & S1 & ->). rewrite chi_lt10 by lia. cbn [obind]. destruct (Reqb_spec 0 0) as [_|NE]; [|congruence]. rewrite Bool.orb_true_r.
    destruct (turnC 1 0 _ (ln 2) S1) as (W2 & S2 & ->). rewrite chi_lt10 by lia. cbn [obind]. replace (ln 2 - ln 2) with 0 by lra. rewrite Rabs_R0.
    destruct (Rltb_spec (1 / 10 * (- (2265 / 10000) + IZR 1 * (12719 / 10000 + IZR 1 * - (97 / 10000)))) 0); [lra|].
    assert (0 < ln 2) by (rewrite <- ln_1; apply ln_increasing; lra). destruct (Reqb_spec (ln 2) 0); [lra|]. reflexivity.
  - apply (Rmult_lt_reg_l (10 ^ 20)); [apply pow_lt; lra|]. rewrite Rinv_r by (apply pow_nonzero; lra). assert (10 ^ 1 <= 10 ^ 20) by (apply Rle_pow; [lra|lia]). lra.
  - intros it st W' i s' rest a b Hi ES VA VB.
    assert (FP : forall i v j, 0 <= fluxC i v j) by (intros i0 v j; pose proof (fluxC_range i0 v j); lra).
    destruct (setFree_ok (nth i st []) (opt0 it i (nth i W' []) (nth i st [])) [] (opt0_len _ _ _ _)) as (s2 & E2 & SM & FV). rewrite app_nil_r, ES in E2. injection E2 as <- _.
    set (s := nth i st []) in *. set (ws := nth i W' []) in *.
    assert (D : map p_val (concat s') = map p_val (concat s) \/ exists x, map p_val (concat s) = [x] /\ map p_val (concat s') = [0] \/ (length (concat s) <> 1%nat /\ length (concat s') <> 1%nat)).
    { assert (SC : Forall2 same_but_value (concat s) (concat s')) by (clear - SM; induction SM; cbn; [constructor|apply Forall2_app; auto]).
      assert (LL : length (concat s) = length (concat s')) by (clear - SC; induction SC; cbn; auto). unfold opt0, num_free, syncParams in FV.
      destruct (concat s) as [|p [|p2 r]] eqn:Ec.
      - destruct (concat s'); [|discriminate]. now left.
      - destruct (concat s') as [|q [|]] eqn:Ec'; try discriminate. inversion SC as [|? ? ? ? (A & B & C) R]; subst. destruct (p_free p) eqn:Ef.
        + right. exists (p_val p). left. split; [reflexivity|]. cbn [filter] in FV. rewrite <- B in FV. rewrite Ef in FV. cbn in FV. cbn. exact FV.
        + left. now rewrite (C eq_refl).
      - right. exists 0. right. cbn in LL. rewrite <- LL. cbn. lia. }
    destruct D as [D|(x & [[D1 D2]|[D1 D2]])].
    + rewrite D in VB. rewrite VA in VB. injection VB as ->. lra.
    + rewrite D1 in VA. rewrite D2 in VB. unfold value in VA, VB. cbn [seq mfold] in VA, VB.
      destruct (weight (Some ws) 0) as [w| |]; try discriminate. cbn [obind] in VA, VB. rewrite !Rabs_pos_eq in VA, VB by apply FP.
      assert (0 <= x * x) by apply Rle_0_sqr. pose proof (fluxC_range 0 [x] 0) as Fx. unfold npredC in VA, VB.
      destruct (Rltb_spec (/ 100) w); [|injection VA as <-; injection VB as <-; lra].
      assert (B2 : / 10 ^ 20 < 1). { apply (Rmult_lt_reg_l (10 ^ 20)); [apply pow_lt; lra|]. rewrite Rinv_r by (apply pow_nonzero; lra). assert (10 ^ 1 <= 10 ^ 20) by (apply Rle_pow; [lra|lia]). lra. }
      assert (F2 : fluxC i [0] 0 = 2) by (unfold fluxC; rewrite Rmult_0_l, Rplus_0_r, Rinv_1; lra). rewrite F2 in VB.
      assert (Fi : 1 <= fluxC i [x] 0 <= 2) by apply fluxC_range. set (q := fluxC i [x] 0) in *.
      destruct (Rltb_spec (/ 10 ^ 20) q) as [_|NB] in VA; [|exfalso; apply NB; apply Rlt_le_trans with 1; [exact B2|lra]].
      destruct (Rltb_spec (/ 10 ^ 20) 2) as [_|NB] in VB; [|exfalso; apply NB; apply Rlt_trans with 1; [exact B2|lra]].
      destruct (Rltb_spec 0 q) in VA; [|lra]. destruct (Rltb_spec 0 2) in VB; [|lra]. cbn [obind] in VA, VB. injection VA as <-. injection VB as <-.
      assert (LQ : ln q <= ln 2) by (destruct (proj2 Fi) as [Q|Q]; [left; apply ln_increasing; lra|rewrite Q; lra]).
      assert (w * ln q <= w * ln 2) by (apply Rmult_le_compat_l; lra). lra.
    + assert (K : forall l : list R, length l <> 1%nat -> fluxC i l = (fun _ => 2) /\ npredC i l = 0).
      { intros [|y [|]] H; cbn in *; [split; reflexivity|lia|split; reflexivity]. }
      destruct (K (map p_val (concat s)) ltac:(now rewrite map_length)) as [K1 K2]. destruct (K (map p_val (concat s')) ltac:(now rewrite map_length)) as [K3 K4].
      rewrite K1, K2 in VA. rewrite K3, K4 in VB. rewrite VA in VB. injection VB as ->. lra.
Qed.

Example C75_case_weights : exists W', e_step fluxA 1 stA (map (fun _ => repeat 0 1) stA) = Ok W' /\ cell W' 1 0 = / 200.
Proof.
  destruct (C75_weights fluxA 1 stA _ (zeros_sized 1 stA) fluxA_pos) as (W' & E & _ & H). exists W'. split; [exact E|].
  destruct (H 0%nat ltac:(lia)) as [A _]. destruct A as [A _]; [cbn; lra|]. destruct (A 1%nat ltac:(cbn; lia)) as [C _]. rewrite C. unfold share. cbn. lra.
Qed.

Print Assumptions C75_weights. Print Assumptions C75_round. Print Assumptions C75_fit_never_lowers. Print Assumptions C75_gradient.
Print Assumptions C75_parameters. Print Assumptions C75_only_free_values. Print Assumptions C75_stops. Print Assumptions C75_nothing_free. Print Assumptions C75_tolerance.
Print Assumptions C75_faint_source_refuted. Print Assumptions C75_vanishing_flux_refuted. Print Assumptions C75_no_events_refuted.
Print Assumptions C75_many_parameters_refuted. Print Assumptions C75_stale_refuted. Print Assumptions C75_quantile_refuted.

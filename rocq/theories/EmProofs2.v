From Coq Require Import Reals Lra Lia.
From Verif Require Import Base AccumModel AccumProofs EmModel EmSpec EmProofs.
Local Open Scope R_scope.

(** ** Setting parameters *)
Definition same_but_value (p q : param) : Prop := p_name p = p_name q /\ p_free p = p_free q /\ (p_free p = false -> p = q).

Lemma f_setFree_ok f : forall it rest, length it = length (filter p_free f) ->
  exists f', f_setFree f (it ++ rest) = Ok (f', rest) /\ Forall2 same_but_value f f' /\ map p_val (filter p_free f') = it.
Proof.
  induction f as [|p f IH]; intros it rest HL; cbn [f_setFree filter] in *.
  - destruct it; [|discriminate]. exists []. repeat split; constructor.
  - destruct (p_free p) eqn:Ep.
    + destruct it as [|x it]; [discriminate|]. cbn in HL. destruct (IH it rest ltac:(lia)) as (f' & E & A & B). cbn [app]. rewrite E. cbn.
      exists (set_val p x :: f'). split; [reflexivity|]. split.
      * constructor; auto. split; [reflexivity|]. split; [reflexivity|]. congruence.
      * cbn. rewrite Ep. cbn. now rewrite B.
    + destruct (IH it rest HL) as (f' & E & A & B). rewrite E. cbn. exists (p :: f'). split; [reflexivity|]. split.
      * constructor; auto. repeat split.
      * cbn. rewrite Ep. exact B.
Qed.

Lemma setFree_ok s : forall it rest, length it = num_free s ->
  exists s', setFreeParamValues_ s (it ++ rest) = Ok (s', rest) /\ Forall2 (Forall2 same_but_value) s s' /\ map p_val (filter p_free (concat s')) = it.
Proof.
  induction s as [|f s IH]; intros it rest HL.
  - destruct it; [|discriminate]. exists []. repeat split; constructor.
  - unfold num_free, syncParams in HL. cbn [concat] in HL. rewrite filter_app, app_length in HL.
    assert (E : it = firstn (length (filter p_free f)) it ++ skipn (length (filter p_free f)) it) by (symmetry; apply firstn_skipn).
    set (i1 := firstn _ it) in E. set (i2 := skipn _ it) in E.
    assert (L1 : length i1 = length (filter p_free f)) by (unfold i1; rewrite firstn_length; lia).
    assert (L2 : length i2 = num_free s) by (unfold i2, num_free, syncParams; rewrite skipn_length; lia).
    destruct (f_setFree_ok f i1 (i2 ++ rest) L1) as (f' & E1 & A1 & B1). destruct (IH i2 rest L2) as (s' & E2 & A2 & B2).
    exists (f' :: s'). rewrite E, <- app_assoc. cbn [setFreeParamValues_]. rewrite E1. cbn [obind snd fst]. rewrite E2. cbn [obind snd fst].
    split; [reflexivity|]. split; [constructor; auto|]. cbn [concat]. rewrite filter_app, map_app, B1, B2. reflexivity.
Qed.

(** Whatever the values are, only the values of free parameters change. *)
Lemma f_setFree_shape f : forall it f' rest, f_setFree f it = Ok (f', rest) -> Forall2 same_but_value f f'.
Proof.
  induction f as [|p f IH]; intros it f' rest E; cbn [f_setFree] in E.
  - injection E as <- <-. constructor.
  - destruct (p_free p) eqn:Ep.
    + destruct it as [|x it]; [discriminate|]. destruct (f_setFree f it) as [[g r]| |] eqn:EF; try discriminate. cbn in E. injection E as <- <-.
      constructor; [|eapply IH; eauto]. repeat split. congruence.
    + destruct (f_setFree f it) as [[g r]| |] eqn:EF; try discriminate. cbn in E. injection E as <- <-. constructor; [|eapply IH; eauto]. repeat split.
Qed.
Lemma setFree_shape s : forall it s' rest, setFreeParamValues_ s it = Ok (s', rest) -> Forall2 (Forall2 same_but_value) s s'.
Proof.
  induction s as [|f s IH]; intros it s' rest E; cbn [setFreeParamValues_] in E.
  - injection E as <- <-. constructor.
  - destruct (f_setFree f it) as [[g r]| |] eqn:EF; try discriminate. cbn [obind fst snd] in E.
    destruct (setFreeParamValues_ s r) as [[t r']| |] eqn:ES; try discriminate. cbn in E. injection E as <- <-.
    constructor; [eapply f_setFree_shape; eauto|eapply IH; eauto].
Qed.

Lemma f_setAll_ok f : forall it rest, length it = length f ->
  exists f', f_setAll f (it ++ rest) = Ok (f', rest) /\ map p_val f' = it /\ map p_name f' = map p_name f /\ map p_free f' = map p_free f.
Proof.
  induction f as [|p f IH]; intros it rest HL; destruct it as [|x it]; try discriminate.
  - exists []. repeat split.
  - cbn in HL. destruct (IH it rest ltac:(lia)) as (f' & E & A & B & C). cbn [f_setAll app]. rewrite E. cbn. exists (set_val p x :: f'). cbn.
    rewrite A, B, C. auto.
Qed.
Lemma setAll_ok s : forall it rest, length it = length (concat s) ->
  exists s', setParamValues_ s (it ++ rest) = Ok (s', rest) /\ map p_val (concat s') = it /\
    map (map p_name) s' = map (map p_name) s /\ map (map p_free) s' = map (map p_free) s.
Proof.
  induction s as [|f s IH]; intros it rest HL.
  - destruct it; [|discriminate]. exists []. repeat split.
  - cbn [concat] in HL. rewrite app_length in HL.
    assert (E : it = firstn (length f) it ++ skipn (length f) it) by (symmetry; apply firstn_skipn).
    set (i1 := firstn _ it) in E. set (i2 := skipn _ it) in E.
    assert (L1 : length i1 = length f) by (unfold i1; rewrite firstn_length; lia).
    assert (L2 : length i2 = length (concat s)) by (unfold i2; rewrite skipn_length; lia).
    destruct (f_setAll_ok f i1 (i2 ++ rest) L1) as (f' & E1 & A1 & B1 & C1). destruct (IH i2 rest L2) as (s' & E2 & A2 & B2 & C2).
    exists (f' :: s'). rewrite E, <- app_assoc. cbn [setParamValues_]. rewrite E1. cbn [obind snd fst]. rewrite E2. cbn [obind snd fst].
    split; [reflexivity|]. cbn [concat map]. rewrite map_app, A1, A2, B1, B2, C1, C2. auto.
Qed.

Lemma f_setParam_at f1 : forall p f2 q, p_name q = p_name p -> ~ In (p_name p) (map p_name f1) -> f_setParam (f1 ++ p :: f2) q = Ok (f1 ++ q :: f2).
Proof.
  induction f1 as [|a f1 IH]; intros p f2 q E N; cbn.
  - rewrite E, Nat.eqb_refl. reflexivity.
  - cbn in N. destruct (Nat.eqb_spec (p_name a) (p_name q)); [exfalso; apply N; left; congruence|]. rewrite IH; auto.
Qed.
Lemma setParams_in_ok f2 : forall f1 ps rest, map p_name ps = map p_name f2 -> NoDup (map p_name (f1 ++ f2)) ->
  setParams_in (f1 ++ f2) (length f2) (ps ++ rest) = Ok (f1 ++ ps, rest).
Proof.
  induction f2 as [|p f2 IH]; intros f1 ps rest EN ND; destruct ps as [|q ps]; try discriminate; cbn [length setParams_in app].
  - reflexivity.
  - cbn in EN. injection EN as Eq EN. rewrite f_setParam_at; auto.
    + cbn [obind]. change (f1 ++ q :: f2) with (f1 ++ [q] ++ f2). rewrite app_assoc, IH; auto.
      * rewrite <- app_assoc. reflexivity.
      * rewrite <- app_assoc. cbn. rewrite map_app in *. cbn in *. now rewrite Eq.
    + rewrite map_app in ND. apply NoDup_remove_2 in ND. intros H. apply ND. apply in_or_app. now left.
Qed.
Lemma setParams_out_ok s : forall ps, Forall (fun f => NoDup (map p_name f)) s -> map p_name ps = map p_name (concat s) ->
  exists s', setParams_out s ps = Ok s' /\ concat s' = ps /\ map (@length _) s' = map (@length _) s.
Proof.
  induction s as [|f s IH]; intros ps ND EN.
  - destruct ps; [|discriminate]. exists []. repeat split.
  - cbn [concat] in EN. rewrite map_app in EN. inversion ND as [|? ? N1 N2]; subst.
    assert (E : ps = firstn (length f) ps ++ skipn (length f) ps) by (symmetry; apply firstn_skipn).
    set (p1 := firstn _ ps) in E. set (p2 := skipn _ ps) in E.
    assert (E1 : map p_name p1 = map p_name f).
    { unfold p1. rewrite <- firstn_map, EN, firstn_app, map_length, Nat.sub_diag, firstn_O, app_nil_r. rewrite <- (map_length p_name f). apply firstn_all. }
    assert (E2 : map p_name p2 = map p_name (concat s)).
    { unfold p2. rewrite <- skipn_map, EN, skipn_app, map_length, Nat.sub_diag. rewrite <- (map_length p_name f) at 1. rewrite skipn_all. reflexivity. }
    destruct (IH p2 N2 E2) as (s' & A & B & C). exists (p1 :: s'). cbn [setParams_out]. rewrite E.
    pose proof (setParams_in_ok f [] p1 p2 E1 N1) as Q. cbn [app] in Q. rewrite Q. cbn [obind snd fst]. rewrite A. cbn [obind].
    split; [reflexivity|]. cbn [concat map]. rewrite B, C. split; [reflexivity|]. f_equal. rewrite <- (map_length p_name p1), E1. apply map_length.
Qed.

(** ** chifunc *)
Definition chi_big (x : R) : R := 2657118 / 10000 + x * (1444737 / 10000 + x * (- (2998 / 10000) + x * (2429 / 10000 + x * (- (1234 / 10000))))).
Lemma chi_big_neg y : 0 <= y -> chi_big (123 / 10 + y) < 0.
Proof.
  intros H. unfold chi_big.
  assert (y * y >= 0) by nra. assert (y * y * y >= 0) by nra. assert (y * y * y * y >= 0) by nra. nra.
Qed.
Lemma chi_big_incr x y : - (18 / 10) <= x -> x < y -> y <= 67 / 10 -> chi_big x < chi_big y.
Proof.
  intros A B C. unfold chi_big.
  assert (E : 2657118 / 10000 + y * (1444737 / 10000 + y * (- (2998 / 10000) + y * (2429 / 10000 + y * (- (1234 / 10000))))) -
         (2657118 / 10000 + x * (1444737 / 10000 + x * (- (2998 / 10000) + x * (2429 / 10000 + x * (- (1234 / 10000)))))) =
         (y - x) * (1444737 / 10000 - 2998 / 10000 * (x + y) + 2429 / 10000 * (x * x + x * y + y * y) - 1234 / 10000 * ((x + y) * (x * x + y * y)))) by field.
  assert (G : 0 < 1444737 / 10000 - 2998 / 10000 * (x + y) + 2429 / 10000 * (x * x + x * y + y * y) - 1234 / 10000 * ((x + y) * (x * x + y * y))).
  { assert (Sx : x * x <= 4489 / 100) by nra. assert (Sy : y * y <= 4489 / 100) by nra.
    assert (Q0 : 0 <= x * x) by nra. assert (Q1 : 0 <= y * y) by nra.
    assert (P1 : 0 <= (134 / 10 - (x + y)) * (x * x + y * y)) by (apply Rmult_le_pos; lra).
    assert (S1 : 0 <= (x + y) * (x + y)) by apply Rle_0_sqr. clear E.
    assert (P2 : x * y >= - (x * x + y * y) / 2) by lra.
    set (u := x * y) in *. set (a := x * x) in *. set (b := y * y) in *.
    assert (P3 : (x + y) * (a + b) <= 134 / 10 * (a + b)) by lra. set (z := (x + y) * (a + b)) in *. lra. }
  pose proof (Rmult_lt_0_compat (y - x) _ ltac:(lra) G). lra.
Qed.

From Coq Require Import Reals Lra Lia.
From Verif Require Import Base AccumModel AccumProofs EmModel EmSpec EmProofs EmProofs2.
Local Open Scope R_scope.

Lemma sum_pos_ex n f : 0 < sum n f -> exists i, (i < n)%nat /\ 0 < f i.
Proof.
  induction n; simpl; intros H; [lra|]. destruct (Rlt_dec 0 (f n)) as [P|P]; [exists n; auto|].
  destruct IHn as (i & A & B); [lra|]. exists i. split; [lia|assumption].
Qed.

Section Round.
Variable flux : nat -> list R -> nat -> R.
Variable npred : nat -> list R -> R.
Variable nev : nat.
Variable opt : nat -> nat -> list R -> list (list param) -> list R.
Definition fl_of (st : list (list (list param))) (i j : nat) : R := flux i (map p_val (concat (nth i st []))) j.
Definition np_of (st : list (list (list param))) (i : nat) : R := npred i (map p_val (concat (nth i st []))).
(** The parameters the optimizer leaves in the sources have at least the statistic the old ones had. *)
Definition improves (it : nat) (st : list (list (list param))) (W' : list (list R)) : Prop :=
  forall i s' rest a b, (i < length st)%nat ->
  setFreeParamValues_ (nth i st []) (opt it i (nth i W' []) (nth i st [])) = Ok (s', rest) ->
  value (/ 100) (/ 10 ^ 20) (flux i (map p_val (concat (nth i st [])))) (npred i (map p_val (concat (nth i st [])))) nev (Some (nth i W' [])) = Ok a ->
  value (/ 100) (/ 10 ^ 20) (flux i (map p_val (concat s'))) (npred i (map p_val (concat s'))) nev (Some (nth i W' [])) = Ok b ->
  a <= b.

Lemma turn_inv it st W old st' W' logL g : sized (length st) nev W ->
  turn flux npred nev opt it st W old = Ok (st', W', logL, g) ->
  e_step flux nev st W = Ok W' /\ exists np c, m_step flux npred nev opt it st W' = Ok (st', logL, np) /\
  chifunc (Z.of_nat np) = Ok c /\ g = (Rltb (1 / 10 * c) (Rabs (logL - old)) || Reqb old 0) /\
  sized (length st') nev W'.
Proof.
  intros HS E. unfold turn in E. destruct (e_step flux nev st W) as [W1| |] eqn:E1; try discriminate. cbn [obind] in E.
  destruct (m_step flux npred nev opt it st W1) as [[[s1 l1] n1]| |] eqn:E2; try discriminate. cbn [obind] in E.
  destruct (chifunc (Z.of_nat n1)) as [c| |] eqn:E3; try discriminate. cbn [obind] in E. injection E as <- <- <- <-.
  split; [reflexivity|]. exists n1, c. split; [exact E2|]. split; [exact E3|]. split; [reflexivity|].
  destruct (e_step_ok flux st nev W HS) as (W2 & EE & S2 & _). rewrite E1 in EE. injection EE as <-.
  destruct (m_step_ok _ _ _ _ _ _ _ _ _ _ E2) as (L & _). now rewrite L.
Qed.

Lemma loop_inv (P : list (list (list param)) -> Prop) :
  (forall it st W old st' W' l g, P st -> sized (length st) nev W -> turn flux npred nev opt it st W old = Ok (st', W', l, g) -> P st') ->
  forall fuel it st W old st' k, P st -> sized (length st) nev W ->
  loop flux npred nev opt fuel it st W old = Some (Ok (st', k)) -> P st'.
Proof.
  intros HP. induction fuel; intros it st W old st' k H0 HS E; [discriminate|]. cbn [loop] in E.
  destruct (turn flux npred nev opt it st W old) as [[[[s1 W1] l1] g]| |] eqn:ET; try discriminate.
  destruct (turn_inv _ _ _ _ _ _ _ _ HS ET) as (_ & np & c & _ & _ & _ & S1).
  pose proof (HP _ _ _ _ _ _ _ _ H0 HS ET) as P1. destruct g.
  - eapply IHfuel; eauto.
  - injection E as <- <-. exact P1.
Qed.

Lemma zeros_sized (st : list (list (list param))) : sized (length st) nev (map (fun _ => repeat 0 nev) st).
Proof.
  split; [apply map_length|]. intros i Hi. rewrite (nth_indep _ [] (repeat 0 nev)) by (rewrite map_length; lia).
  assert (K : forall (l : list (list (list param))) k, nth k (map (fun _ => repeat 0 nev) l) (repeat 0 nev) = repeat 0 nev) by (induction l; destruct k; simpl; auto).
  rewrite K. apply repeat_length.
Qed.

Lemma small_pos : 0 < / 10 ^ 20.
Proof. apply Rinv_0_lt_compat, pow_lt. lra. Qed.

Lemma round it st W old st' W' logL g r : sized (length st) nev W ->
  turn flux npred nev opt it st W old = Ok (st', W', logL, g) ->
  (forall i v j, 0 <= flux i v j) ->
  (forall j, (j < nev)%nat -> 0 < sum (length st) (fun i => fl_of st i j)) ->
  improves it st W' -> 0 <= r ->
  (forall i j, (i < length st)%nat -> (j < nev)%nat -> / 100 < share (length st) (fl_of st) i j -> / 10 ^ 20 < fl_of st i j /\ / 10 ^ 20 < fl_of st' i j) ->
  (forall i j, (i < length st)%nat -> (j < nev)%nat -> 0 < share (length st) (fl_of st) i j <= / 100 -> fl_of st i j <= exp r * fl_of st' i j) ->
  loglike (length st) nev (fl_of st) (np_of st)
    - r * sum (length st) (fun i => sum nev (fun j => where_ (Rle_dec (share (length st) (fl_of st) i j) (/ 100)) (share (length st) (fl_of st) i j)))
  <= loglike (length st') nev (fl_of st') (np_of st').
Proof.
  intros HS ET H0 Ht Hopt Hr Hbig Hsmall. destruct (turn_inv _ _ _ _ _ _ _ _ HS ET) as (EE & np & c & EM & _ & _ & _).
  destruct (e_step_ok flux st nev W HS) as (W2 & EE' & S2 & CW). rewrite EE in EE'. injection EE' as <-.
  destruct (m_step_ok _ _ _ _ _ _ _ _ _ _ EM) as (HL & (v & Hv & Hm) & _). rewrite HL.
  set (n := length st) in *. set (F := fl_of st) in *. set (F' := fl_of st') in *. set (s := share n F) in *.
  pose proof small_pos as SP.
  assert (Hs : forall i j, (i < n)%nat -> (j < nev)%nat -> cell W' i j = s i j).
  { intros i j Hi Hj. rewrite CW by assumption. pose proof (Ht j Hj) as T. unfold F, fl_of in T.
    destruct (Rltb_spec 0 (sum n (fun i0 => fl flux st i0 j))) as [_|K]; [reflexivity|]. exfalso. apply K. exact T. }
  assert (HF : forall i j, 0 <= F i j) by (intros; apply H0). assert (HF' : forall i j, 0 <= F' i j) by (intros; apply H0).
  assert (Hs0 : forall i j, (i < n)%nat -> (j < nev)%nat -> 0 <= s i j).
  { intros. unfold s, share. apply Rmult_le_pos; [apply HF|]. left. apply Rinv_0_lt_compat. now apply Ht. }
  assert (Hsp : forall i j, (i < n)%nat -> (j < nev)%nat -> 0 < F i j -> 0 < s i j).
  { intros. unfold s, share. apply Rdiv_lt_0_compat; auto. }
  assert (Hsz : forall i j, (i < n)%nat -> (j < nev)%nat -> F i j = 0 -> s i j = 0).
  { intros i j Hi Hj E. unfold s, share. rewrite E. unfold Rdiv. lra. }
  assert (Hpp : forall i j, (i < n)%nat -> (j < nev)%nat -> 0 < F i j -> 0 < F' i j).
  { intros i j Hi Hj P. destruct (Rlt_dec (/ 100) (s i j)) as [B|B].
    - destruct (Hbig i j Hi Hj B). lra.
    - pose proof (Hsp i j Hi Hj P). assert (B' : 0 < s i j <= / 100) by lra. pose proof (Hsmall i j Hi Hj B') as X. pose proof (exp_pos r).
      pose proof (HF' i j). destruct (Req_dec (F' i j) 0) as [Z|Z]; [rewrite Z in X; lra|lra]. }
  (* the statistics of the sources *)
  assert (HQ : forall i, (i < n)%nat ->
    sum nev (fun j => where_ (Rlt_dec (/ 100) (s i j)) (s i j * ln (F i j))) - np_of st i <=
    sum nev (fun j => where_ (Rlt_dec (/ 100) (s i j)) (s i j * ln (F' i j))) - np_of st' i).
  { intros i Hi. destruct (Hm i Hi) as (MV & VV).
    assert (LW : (nev <= length (nth i W' []))%nat) by (destruct S2 as [_ R2]; rewrite R2; lia).
    assert (V0 := value_ok (/ 100) (/ 10 ^ 20) ltac:(lra) (flux i (map p_val (concat (nth i st [])))) (np_of st i) nev (nth i W' []) ltac:(intros; apply H0) LW).
    assert (V1 := value_ok (/ 100) (/ 10 ^ 20) ltac:(lra) (flux i (map p_val (concat (nth i st' [])))) (np_of st' i) nev (nth i W' []) ltac:(intros; apply H0) LW).
    assert (Q0 : forall G : nat -> R, (forall j, (j < nev)%nat -> / 100 < s i j -> / 10 ^ 20 < G j) ->
       sum nev (fun j => if used (/ 100) (/ 10 ^ 20) (nth j (nth i W' []) 0) (G j) then nth j (nth i W' []) 0 * ln (G j) else 0) =
       sum nev (fun j => where_ (Rlt_dec (/ 100) (s i j)) (s i j * ln (G j)))).
    { intros G HG. apply sum_ext. intros j Hj. pose proof (Hs i j Hi Hj) as C. unfold cell in C. rewrite C. unfold used, where_.
      destruct (Rlt_dec (/ 100) (s i j)) as [B|B]; destruct (Rltb_spec (/ 100) (s i j)); cbn [andb]; try lra.
      pose proof (HG j Hj B). destruct (Rltb_spec (/ 10 ^ 20) (G j)); [reflexivity|lra]. }
    rewrite (Q0 (flux i (map p_val (concat (nth i st []))))) in V0 by (intros j Hj B; apply (Hbig i j Hi Hj B)).
    rewrite (Q0 (flux i (map p_val (concat (nth i st' []))))) in V1 by (intros j Hj B; apply (Hbig i j Hi Hj B)).
    destruct MV as [[_ ES]|[_ (rest & ES)]].
    - unfold F', fl_of, np_of. rewrite ES. unfold F, fl_of. lra.
    - exact (Hopt _ _ _ _ _ Hi ES V0 V1). }
  apply sum_le in HQ. rewrite !sum_minus in HQ.
  (* events *)
  assert (HJ : forall j, (j < nev)%nat ->
    sum n (fun i => where_ (Rlt_dec (/ 100) (s i j)) (s i j * ln (F' i j)) - where_ (Rlt_dec (/ 100) (s i j)) (s i j * ln (F i j))
                    - r * where_ (Rle_dec (s i j) (/ 100)) (s i j))
    <= ln (sum n (fun i => F' i j)) - ln (sum n (fun i => F i j))).
  { intros j Hj. destruct (sum_pos_ex n _ (Ht j Hj)) as (i0 & Hi0 & P0).
    assert (T' : 0 < sum n (fun i => F' i j)).
    { apply Rlt_le_trans with (F' i0 j); [apply Hpp; auto|]. apply (sum_ge n (fun i => F' i j)); auto. }
    eapply Rle_trans; [|apply (jensen n (fun i => F i j) (fun i => F' i j)); auto].
    apply sum_le. intros i Hi. unfold where_. fold (share n F i j). change (share n F i j) with (s i j).
    pose proof (Hs0 i j Hi Hj).
    destruct (Rlt_dec 0 (F i j)) as [P|P].
    - destruct (Rlt_dec (/ 100) (s i j)), (Rle_dec (s i j) (/ 100)); try lra.
      assert (B' : 0 < s i j <= / 100) by (split; [apply Hsp; auto|lra]). pose proof (Hsmall i j Hi Hj B') as X.
      pose proof (Hpp i j Hi Hj P) as P'. assert (LX : ln (F i j) <= ln (exp r * F' i j)) by (destruct X as [X|X]; [left; now apply ln_increasing|right; now rewrite X]).
      rewrite ln_mult, ln_exp in LX by (auto; apply exp_pos). nra.
    - assert (Z : F i j = 0) by (pose proof (HF i j); lra). rewrite (Hsz i j Hi Hj Z).
      destruct (Rlt_dec (/ 100) 0), (Rle_dec 0 (/ 100)); lra. }
  apply sum_le in HJ. rewrite sum_minus in HJ. unfold loglike.
  rewrite (sum_ext nev _ (fun j => sum n (fun i => where_ (Rlt_dec (/ 100) (s i j)) (s i j * ln (F' i j)) - where_ (Rlt_dec (/ 100) (s i j)) (s i j * ln (F i j)))
             - r * sum n (fun i => where_ (Rle_dec (s i j) (/ 100)) (s i j)))) in HJ.
  2:{ intros j Hj. now rewrite <- sum_scal, <- sum_minus. }
  rewrite sum_minus, sum_scal in HJ. rewrite (sum_swap n nev (fun i j => where_ (Rle_dec (s i j) (/ 100)) (s i j))).
  rewrite (sum_ext nev _ (fun j => sum n (fun i => where_ (Rlt_dec (/ 100) (s i j)) (s i j * ln (F' i j))) - sum n (fun i => where_ (Rlt_dec (/ 100) (s i j)) (s i j * ln (F i j))))) in HJ by (intros; apply sum_minus).
  rewrite sum_minus in HJ. rewrite !(sum_swap n nev) in HQ. fold n in HQ. lra.
Qed.

(** ** A round always ends, unless nothing is free *)
Lemma m_step_total it st W : (forall i v j, 0 <= flux i v j) -> sized (length st) nev W ->
  (forall it i ws s, length (opt it i ws s) = num_free s) ->
  exists st' logL np, m_step flux npred nev opt it st W = Ok (st', logL, np).
Proof.
  intros H0 [HL HR] Ho. unfold m_step.
  assert (K : forall k, (k <= length st)%nat -> exists st' logL np, mfold (m_source flux npred nev opt it W) (seq 0 k) (st, 0, 0%nat) = Ok (st', logL, np) /\
     length st' = length st).
  { induction k; intros Hk; [exists st, 0, 0%nat; auto|]. destruct IHk as (s1 & l1 & n1 & E & L); [lia|].
    rewrite EmProofs.seq_S, mfold_snoc, E. cbn [obind]. unfold m_source. rewrite (vec_get_ok s1 k []) by lia. cbn [obind].
    rewrite (vec_get_ok W k []) by lia. cbn [obind].
    assert (X : exists s', (if Nat.ltb 0 (num_free (nth k s1 [])) then obind (setFreeParamValues_ (nth k s1 []) (opt it k (nth k W []) (nth k s1 []))) (fun r => Ok (fst r)) else Ok (nth k s1 [])) = Ok s').
    { destruct (Nat.ltb 0 _); [|eexists; reflexivity]. destruct (setFree_ok (nth k s1 []) (opt it k (nth k W []) (nth k s1 [])) [] (Ho _ _ _ _)) as (s' & ES & _).
      rewrite app_nil_r in ES. rewrite ES. exists s'. reflexivity. }
    destruct X as (s' & ->). cbn [obind]. rewrite value_ok.
    - cbn [obind]. do 3 eexists. split; [reflexivity|]. now rewrite upd_length.
    - left. apply small_pos.
    - intros; apply H0.
    - rewrite HR by lia. lia. }
  destruct (K (length st) (le_n _)) as (a & b & c & E & _). now exists a, b, c.
Qed.

Lemma chifunc_ok k : (0 < k)%Z -> exists c, chifunc k = Ok c.
Proof. intros H. unfold chifunc. destruct (Z.leb_spec k 0); [lia|]. destruct (Z.ltb k 10); eexists; reflexivity. Qed.

Lemma turn_total it st W old : (forall i v j, 0 <= flux i v j) -> sized (length st) nev W ->
  (forall it i ws s, length (opt it i ws s) = num_free s) -> (0 < fold_right Nat.add 0%nat (map num_free st))%nat ->
  exists st' W' logL g, turn flux npred nev opt it st W old = Ok (st', W', logL, g).
Proof.
  intros H0 HS Ho Hn. unfold turn. destruct (e_step_ok flux st nev W HS) as (W' & E & S' & _). rewrite E. cbn [obind].
  destruct (m_step_total it st W' H0 S' Ho) as (st' & l & np & EM). rewrite EM. cbn [obind].
  destruct (m_step_ok _ _ _ _ _ _ _ _ _ _ EM) as (_ & _ & Hnp). rewrite Hnp.
  destruct (chifunc_ok (Z.of_nat (fold_right Nat.add 0%nat (map num_free st))) ltac:(lia)) as (c & ->). cbn [obind]. do 4 eexists. reflexivity.
Qed.
End Round.

Lemma same_free s s' : Forall2 (Forall2 same_but_value) s s' -> num_free s' = num_free s.
Proof.
  unfold num_free, syncParams. induction 1 as [|f f' s s' H _ IH]; [reflexivity|]. cbn [concat]. rewrite !filter_app, !app_length, IH. f_equal.
  clear - H. induction H as [|p q f f' (A & B & C) _ IH]; [reflexivity|]. cbn. rewrite <- B. destruct (p_free p); cbn; lia.
Qed.
Lemma same_refl s : Forall2 (Forall2 same_but_value) s s.
Proof. induction s; constructor; auto. induction a; constructor; auto. repeat split. Qed.
Lemma same_trans1 f1 f2 f3 : Forall2 same_but_value f1 f2 -> Forall2 same_but_value f2 f3 -> Forall2 same_but_value f1 f3.
Proof.
  intros H. revert f3. induction H as [|p q f f' (A & B & C) _ IH]; intros y H2; inversion H2 as [|? z ? ? (A' & B' & C')]; subst; constructor; auto.
  split; [congruence|]. split; [congruence|]. intros F. rewrite C by assumption. apply C'. congruence.
Qed.
Lemma same_trans s1 s2 s3 : Forall2 (Forall2 same_but_value) s1 s2 -> Forall2 (Forall2 same_but_value) s2 s3 -> Forall2 (Forall2 same_but_value) s1 s3.
Proof.
  intros H. revert s3. induction H as [|f f' s s' H _ IH]; intros s3 H3; inversion H3; subst; constructor; auto. eapply same_trans1; eauto.
Qed.
Lemma moved_same opt it i ws s s' : moved opt it i ws s s' -> Forall2 (Forall2 same_but_value) s s'.
Proof. intros [[_ ->]|[_ (r & E)]]; [apply same_refl|]. eapply setFree_shape; eauto. Qed.
Lemma turn_same flux npred nev opt it st W old st' W' l g : sized (length st) nev W ->
  turn flux npred nev opt it st W old = Ok (st', W', l, g) -> Forall2 (Forall2 (Forall2 same_but_value)) st st'.
Proof.
  intros HS E. destruct (turn_inv _ _ _ _ _ _ _ _ _ _ _ _ HS E) as (_ & np & c & EM & _).
  destruct (m_step_ok _ _ _ _ _ _ _ _ _ _ EM) as (L & (v & _ & H) & _).
  assert (K : forall i, (i < length st)%nat -> Forall2 (Forall2 same_but_value) (nth i st []) (nth i st' [])) by (intros i Hi; eapply moved_same; apply H; exact Hi).
  clear - L K. revert st' L K. induction st as [|s st IH]; intros [|s' st'] L K; try discriminate; constructor.
  - apply (K 0%nat). simpl. lia.
  - apply IH; [now injection L|]. intros i Hi. apply (K (S i)). simpl. lia.
Qed.
Lemma all_free_same st st' : Forall2 (Forall2 (Forall2 same_but_value)) st st' -> fold_right Nat.add 0%nat (map num_free st') = fold_right Nat.add 0%nat (map num_free st).
Proof. induction 1; cbn; auto. rewrite IHForall2, (same_free x y); auto. Qed.

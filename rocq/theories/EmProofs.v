From Coq Require Import Reals Lra Lia.
From Verif Require Import Base AccumModel AccumProofs EmModel EmSpec.
Local Open Scope R_scope.

(** ** Sums *)
Lemma sum_ext n f g : (forall i, (i < n)%nat -> f i = g i) -> sum n f = sum n g.
Proof. induction n; intros H; simpl; auto. rewrite IHn, (H n) by (intros; try apply H; lia). reflexivity. Qed.
Lemma sum_le n f g : (forall i, (i < n)%nat -> f i <= g i) -> sum n f <= sum n g.
Proof. induction n; intros H; simpl; [lra|]. pose proof (H n ltac:(lia)). assert (sum n f <= sum n g) by (apply IHn; intros; apply H; lia). lra. Qed.
Lemma sum_plus n f g : sum n (fun i => f i + g i) = sum n f + sum n g.
Proof. induction n; simpl; [lra|]. rewrite IHn; lra. Qed.
Lemma sum_minus n f g : sum n (fun i => f i - g i) = sum n f - sum n g.
Proof. induction n; simpl; [lra|]. rewrite IHn; lra. Qed.
Lemma sum_scal n c f : sum n (fun i => c * f i) = c * sum n f.
Proof. induction n; simpl; [lra|]. rewrite IHn; lra. Qed.
Lemma sum_div n c f : sum n (fun i => f i / c) = sum n f / c.
Proof. induction n; simpl; [unfold Rdiv; lra|]. rewrite IHn; unfold Rdiv; lra. Qed.
Lemma sum_zero n : sum n (fun _ => 0) = 0.
Proof. induction n; simpl; lra. Qed.
Lemma sum_swap n m f : sum n (fun i => sum m (fun j => f i j)) = sum m (fun j => sum n (fun i => f i j)).
Proof. induction n; simpl; [now rewrite sum_zero|]. rewrite IHn, <- sum_plus. reflexivity. Qed.
Lemma sum_pos n f : (forall i, (i < n)%nat -> 0 <= f i) -> 0 <= sum n f.
Proof. intros H. rewrite <- (sum_zero n). now apply sum_le. Qed.
Lemma sum_ge n f i : (forall k, (k < n)%nat -> 0 <= f k) -> (i < n)%nat -> f i <= sum n f.
Proof.
  induction n; intros H L; [lia|]. simpl. assert (0 <= sum n f) by (apply sum_pos; intros; apply H; lia).
  destruct (Nat.eq_dec i n) as [->|]; [lra|]. assert (f i <= sum n f) by (apply IHn; [intros; apply H; lia|lia]).
  pose proof (H n ltac:(lia)). lra.
Qed.
Lemma sum_le_const n f b : (forall k, (k < n)%nat -> f k <= b) -> sum n f <= INR n * b.
Proof.
  induction n; intros H; [simpl; lra|]. rewrite S_INR. simpl sum.
  assert (sum n f <= INR n * b) by (apply IHn; intros; apply H; lia). pose proof (H n ltac:(lia)). lra.
Qed.

(** ** Folds *)
Lemma seq_S n : seq 0 (S n) = seq 0 n ++ [n].
Proof. now rewrite seq_S. Qed.
Lemma mfold_snoc {A S} (f : S -> A -> outcome S) l a s : mfold f (l ++ [a]) s = obind (mfold f l s) (fun t => f t a).
Proof. rewrite mfold_app. destruct (mfold f l s); cbn; auto. destruct (f a0 a); reflexivity. Qed.

(** ** The E step *)
Lemma w_set_ok n m W i j x : sized n m W -> (i < n)%nat -> (j < m)%nat ->
  exists W', w_set W i j x = Ok W' /\ sized n m W' /\
    forall i' j', cell W' i' j' = if Nat.eqb i' i && Nat.eqb j' j then x else cell W i' j'.
Proof.
  intros [HL HR] Hi Hj. unfold w_set. rewrite (vec_get_ok W i []) by lia. cbn [obind].
  rewrite vec_set_ok by (rewrite HR; lia). cbn [obind]. rewrite vec_set_ok by lia. eexists; split; [reflexivity|]. split.
  - split; [now rewrite upd_length|]. intros k Hk. destruct (Nat.eq_dec k i) as [->|].
    + rewrite nth_upd_eq by lia. rewrite upd_length. now apply HR.
    + rewrite nth_upd_neq by lia. now apply HR.
  - intros i' j'. unfold cell. destruct (Nat.eqb_spec i' i) as [->|]; cbn [andb].
    + rewrite nth_upd_eq by lia. destruct (Nat.eqb_spec j' j) as [->|].
      * rewrite nth_upd_eq; auto. rewrite HR; lia.
      * now rewrite nth_upd_neq by lia.
    + now rewrite nth_upd_neq by lia.
Qed.

Section E.
Variable flux : nat -> list R -> nat -> R.
Variable st : list (list (list param)).
Notation n := (length st).
Definition fl (i j : nat) : R := flux i (values (nth i st [])) j.

Lemma e_fill m W j k : sized n m W -> (j < m)%nat -> (k <= n)%nat ->
  exists W', mfold (fun wz i =>
           obind (vec_get st i) (fun s =>
           obind (w_set (fst wz) i j (flux i (values s) j)) (fun W' => Ok (W', snd wz + flux i (values s) j)))) (seq 0 k) (W, 0) = Ok (W', sum k (fun i => fl i j)) /\
    sized n m W' /\ forall i' j', cell W' i' j' = if Nat.ltb i' k && Nat.eqb j' j then fl i' j else cell W i' j'.
Proof.
  intros HS Hj. induction k; intros Hk.
  - exists W. simpl. auto.
  - destruct IHk as (W1 & E1 & S1 & C1); [lia|]. rewrite seq_S, mfold_snoc, E1. cbn [obind].
    rewrite (vec_get_ok st k []) by lia. cbn [obind fst snd]. cbv zeta.
    destruct (w_set_ok n m W1 k j (fl k j) S1 ltac:(lia) Hj) as (W2 & E2 & S2 & C2). unfold fl in E2 at 1. rewrite E2. cbn [obind].
    exists W2. split; [reflexivity|]. split; [exact S2|]. intros i' j'. rewrite C2, C1.
    destruct (Nat.eqb_spec i' k) as [->|]; cbn [andb].
    + destruct (Nat.ltb_spec k (S k)); [|lia]. destruct (Nat.ltb_spec k k); [lia|]. cbn [andb]. destruct (Nat.eqb_spec j' j); auto.
    + destruct (Nat.ltb_spec i' (S k)), (Nat.ltb_spec i' k); try lia; reflexivity.
Qed.

Lemma e_norm m W j t k : sized n m W -> (j < m)%nat -> (k <= n)%nat ->
  exists W', mfold (fun W i =>
             if Rltb 0 t then
               obind (vec_get W i) (fun r => obind (vec_get r j) (fun x => w_set W i j (x / t)))
             else Ok W) (seq 0 k) W = Ok W' /\
    sized n m W' /\ forall i' j', cell W' i' j' = if Nat.ltb i' k && Nat.eqb j' j && Rltb 0 t then cell W i' j / t else cell W i' j'.
Proof.
  intros HS Hj. induction k; intros Hk.
  - exists W. simpl. auto.
  - destruct IHk as (W1 & E1 & S1 & C1); [lia|]. rewrite seq_S, mfold_snoc, E1. cbn [obind].
    destruct (Rltb 0 t) eqn:Et.
    + rewrite (vec_get_ok W1 k []) by (destruct S1; lia). cbn [obind].
      rewrite (vec_get_ok (nth k W1 []) j 0) by (destruct S1 as [_ R1]; rewrite R1; lia). cbn [obind].
      destruct (w_set_ok n m W1 k j (cell W1 k j / t) S1 ltac:(lia) Hj) as (W2 & E2 & S2 & C2). unfold cell in E2 at 1. rewrite E2.
      exists W2. split; [reflexivity|]. split; [exact S2|]. intros i' j'. rewrite C2, !C1.
      destruct (Nat.eqb_spec i' k) as [->|]; cbn [andb].
      * destruct (Nat.ltb_spec k (S k)); [|lia]. destruct (Nat.ltb_spec k k); [lia|]. cbn [andb]. destruct (Nat.eqb_spec j' j); auto.
      * destruct (Nat.ltb_spec i' (S k)), (Nat.ltb_spec i' k); try lia; reflexivity.
    + exists W1. split; [reflexivity|]. split; [exact S1|]. intros. rewrite C1. now rewrite !Bool.andb_false_r.
Qed.

Lemma e_event_ok m W j : sized n m W -> (j < m)%nat ->
  exists W', e_event flux st W j = Ok W' /\ sized n m W' /\
    forall i' j', (i' < n)%nat -> cell W' i' j' = if Nat.eqb j' j then (if Rltb 0 (sum n (fun i => fl i j)) then share n fl i' j else fl i' j) else cell W i' j'.
Proof.
  intros HS Hj. unfold e_event. destruct (e_fill m W j n HS Hj (le_n _)) as (W1 & E1 & S1 & C1). rewrite E1. cbn [obind fst snd].
  destruct (e_norm m W1 j (sum n (fun i => fl i j)) n S1 Hj (le_n _)) as (W2 & E2 & S2 & C2). rewrite E2. exists W2.
  split; [reflexivity|]. split; [exact S2|]. intros i' j' Hi. rewrite C2, !C1. destruct (Nat.ltb_spec i' n); [|lia]. cbn [andb].
  destruct (Nat.eqb_spec j' j) as [->|]; cbn [andb]; auto. rewrite Nat.eqb_refl. destruct (Rltb 0 _); reflexivity.
Qed.

Lemma e_step_ok nev W : sized n nev W ->
  exists W', e_step flux nev st W = Ok W' /\ sized n nev W' /\
    forall i j, (i < n)%nat -> (j < nev)%nat -> cell W' i j = if Rltb 0 (sum n (fun i => fl i j)) then share n fl i j else fl i j.
Proof.
  intros HS. unfold e_step.
  assert (K : forall k, (k <= nev)%nat -> exists W', mfold (e_event flux st) (seq 0 k) W = Ok W' /\ sized n nev W' /\
    forall i j, (i < n)%nat -> (j < k)%nat -> cell W' i j = if Rltb 0 (sum n (fun i => fl i j)) then share n fl i j else fl i j).
  { induction k; intros Hk.
    - exists W. simpl. split; [reflexivity|]. split; [exact HS|]. intros; lia.
    - destruct IHk as (W1 & E1 & S1 & C1); [lia|]. rewrite seq_S, mfold_snoc, E1. cbn [obind].
      destruct (e_event_ok nev W1 k S1 ltac:(lia)) as (W2 & E2 & S2 & C2). rewrite E2. exists W2. split; [reflexivity|]. split; [exact S2|].
      intros i j Hi Hj. rewrite C2 by lia. destruct (Nat.eqb_spec j k) as [->|]; auto. apply C1; lia. }
  apply K. lia.
Qed.
End E.

(** ** The statistic of one source *)
Section V.
Variables (epsw epsf : R).
Hypothesis He : 0 <= epsf.

(** Is the pair counted? *)
Definition used (w q : R) : bool := Rltb epsw w && Rltb epsf q.

Lemma value_ok f np nev ws : (forall j, (j < nev)%nat -> 0 <= f j) -> (nev <= length ws)%nat ->
  value epsw epsf f np nev (Some ws) = Ok (sum nev (fun j => if used (nth j ws 0) (f j) then nth j ws 0 * ln (f j) else 0) - np).
Proof.
  intros Hf Hl. unfold value.
  assert (K : forall k, (k <= nev)%nat -> mfold (fun val i =>
           obind (weight (Some ws) i) (fun w =>
           if Rltb epsw w then
             let q := f i in
             if Rltb epsf (Rabs q) then (if Rltb 0 q then Ok (val + w * ln q) else UB)
             else Ok val
           else Ok val)) (seq 0 k) 0 = Ok (sum k (fun j => if used (nth j ws 0) (f j) then nth j ws 0 * ln (f j) else 0))).
  { induction k; intros Hk; [reflexivity|]. rewrite seq_S, mfold_snoc, IHk by lia. cbn [obind weight].
    rewrite (vec_get_ok ws k 0) by lia. cbn [obind]. unfold used. cbv zeta. rewrite Rabs_pos_eq by (apply Hf; lia). simpl sum.
    destruct (Rltb_spec epsw (nth k ws 0)); cbn [andb]; [|f_equal; unfold used; lra].
    destruct (Rltb_spec epsf (f k)); [|f_equal; unfold used; lra]. destruct (Rltb_spec 0 (f k)); [reflexivity|lra]. }
  rewrite K by lia. reflexivity.
Qed.

Lemma deriv_ok f df dnp nev ws : (forall j, (j < nev)%nat -> 0 <= f j) -> (nev <= length ws)%nat ->
  deriv epsw epsf f df dnp nev (Some ws) = Ok (sum nev (fun j => if used (nth j ws 0) (f j) then nth j ws 0 * df j / f j else 0) - dnp).
Proof.
  intros Hf Hl. unfold deriv.
  assert (K : forall k, (k <= nev)%nat -> mfold (fun d i =>
           obind (weight (Some ws) i) (fun w =>
           if Rltb epsw w then
             let q := f i in
             if Rltb epsf (Rabs q) then Ok (d + w * df i / q) else Ok d
           else Ok d)) (seq 0 k) 0 = Ok (sum k (fun j => if used (nth j ws 0) (f j) then nth j ws 0 * df j / f j else 0))).
  { induction k; intros Hk; [reflexivity|]. rewrite seq_S, mfold_snoc, IHk by lia. cbn [obind weight].
    rewrite (vec_get_ok ws k 0) by lia. cbn [obind]. unfold used. cbv zeta. rewrite Rabs_pos_eq by (apply Hf; lia). simpl sum.
    destruct (Rltb_spec epsw (nth k ws 0)); cbn [andb]; [|f_equal; unfold used; lra].
    destruct (Rltb_spec epsf (f k)); [reflexivity|f_equal; unfold used; lra]. }
  rewrite K by lia. reflexivity.
Qed.
End V.

(** ** The M step *)
Section M.
Variable flux : nat -> list R -> nat -> R.
Variable npred : nat -> list R -> R.
Variable nev : nat.
Variable opt : nat -> nat -> list R -> list (list param) -> list R.

Definition moved (it i : nat) (ws : list R) (s s' : list (list param)) : Prop :=
  (num_free s = 0%nat /\ s' = s) \/ ((0 < num_free s)%nat /\ exists rest, setFreeParamValues_ s (opt it i ws s) = Ok (s', rest)).

Lemma m_step_ok it st W st' logL np : m_step flux npred nev opt it st W = Ok (st', logL, np) ->
  length st' = length st /\
  (exists v, logL = sum (length st) v /\
   forall i, (i < length st)%nat ->
     moved it i (nth i W []) (nth i st []) (nth i st' []) /\
     value (/ 100) (/ 10 ^ 20) (flux i (values (nth i st' []))) (npred i (values (nth i st' []))) nev (Some (nth i W [])) = Ok (v i)) /\
  np = fold_right Nat.add 0%nat (map num_free st).
Proof.
  unfold m_step.
  assert (K : forall k st' logL np, (k <= length st)%nat ->
    mfold (m_source flux npred nev opt it W) (seq 0 k) (st, 0, 0%nat) = Ok (st', logL, np) ->
    length st' = length st /\ (forall i, (k <= i)%nat -> nth i st' [] = nth i st []) /\
    (exists v, logL = sum k v /\ forall i, (i < k)%nat ->
       moved it i (nth i W []) (nth i st []) (nth i st' []) /\
       value (/ 100) (/ 10 ^ 20) (flux i (values (nth i st' []))) (npred i (values (nth i st' []))) nev (Some (nth i W [])) = Ok (v i)) /\
    np = fold_right Nat.add 0%nat (map num_free (firstn k st))).
  { induction k; intros s1 l1 n1 Hk E.
    - simpl in E. injection E as <- <- <-. split; [reflexivity|]. split; [reflexivity|]. split; [|reflexivity].
      exists (fun _ => 0). split; [reflexivity|]. intros; lia.
    - rewrite seq_S, mfold_snoc in E. destruct (mfold _ (seq 0 k) _) as [[[s0 l0] n0]| |] eqn:E0; try discriminate. cbn [obind] in E.
      destruct (IHk s0 l0 n0 ltac:(lia) eq_refl) as (HL & HR & (v & Hv & Hm) & Hn). unfold m_source in E.
      rewrite (vec_get_ok s0 k []) in E by lia. cbn [obind] in E. rewrite HR in E by lia.
      destruct (vec_get W k) as [ws| |] eqn:EW; try discriminate. cbn [obind] in E.
      assert (Hws : ws = nth k W []). { unfold vec_get in EW. destruct (nth_error W k) eqn:EE; try discriminate. injection EW as <-. symmetry. now apply nth_error_nth. }
      subst ws.
      destruct (if Nat.ltb 0 (num_free (nth k st [])) then _ else _) as [s'| |] eqn:Es; try discriminate. cbn [obind] in E.
      destruct (value _ _ _ _ _ _) as [v1| |] eqn:Ev; try discriminate. cbn [obind] in E. injection E as <- <- <-.
      split; [now rewrite upd_length|]. split; [intros i Hi; rewrite nth_upd_neq by lia; apply HR; lia|]. split.
      + exists (fun i => if Nat.eqb i k then v1 else v i). split.
        * simpl. rewrite Nat.eqb_refl, Hv. f_equal. apply sum_ext. intros i Hi. destruct (Nat.eqb_spec i k); [lia|reflexivity].
        * intros i Hi. destruct (Nat.eqb_spec i k) as [->|].
          -- rewrite nth_upd_eq by lia. split; [|exact Ev]. destruct (Nat.ltb_spec 0 (num_free (nth k st []))).
             ++ right. split; [assumption|]. destruct (setFreeParamValues_ _ _) as [[a b]| |] eqn:EF; try discriminate. cbn in Es. injection Es as ->. now exists b.
             ++ left. split; [lia|]. now injection Es.
          -- rewrite nth_upd_neq by lia. apply Hm. lia.
      + rewrite Hn. assert (F : firstn (S k) st = firstn k st ++ [nth k st []]).
        { clear - Hk. revert st Hk. induction k; intros [|a l] H; simpl in *; try lia; auto. f_equal. apply IHk. lia. }
        rewrite F, map_app, fold_right_app. simpl. rewrite Nat.add_0_r.
        assert (G : forall l a, fold_right Nat.add a (map num_free l) = (fold_right Nat.add 0%nat (map num_free l) + a)%nat).
        { clear. induction l; intros; simpl; auto. rewrite IHl. lia. }
        rewrite (G (firstn k st) (num_free _)). reflexivity. }
  intros E. destruct (K (length st) st' logL np (le_n _) E) as (A & _ & B & C). rewrite firstn_all in C. auto.
Qed.
End M.

(** ** Jensen *)
Lemma ln_le_sub x : 0 < x -> ln x <= x - 1.
Proof. intros H. pose proof (exp_ineq1_le (ln x)). rewrite exp_ln in H0 by assumption. lra. Qed.

Lemma ln_quot x y : 0 < x -> 0 < y -> ln (x / y) = ln x - ln y.
Proof. intros. unfold Rdiv. rewrite ln_mult, ln_Rinv; auto. now apply Rinv_0_lt_compat. Qed.

Lemma jensen n (F F' : nat -> R) :
  (forall i, (i < n)%nat -> 0 <= F i) -> (forall i, (i < n)%nat -> 0 <= F' i) ->
  0 < sum n F -> 0 < sum n F' -> (forall i, (i < n)%nat -> 0 < F i -> 0 < F' i) ->
  sum n (fun i => where_ (Rlt_dec 0 (F i)) (F i / sum n F * (ln (F' i) - ln (F i)))) <= ln (sum n F') - ln (sum n F).
Proof.
  intros HF HF' HT HT' Hpos. set (T := sum n F) in *. set (T' := sum n F') in *.
  assert (A : sum n (fun i => where_ (Rlt_dec 0 (F i)) (F i / T * (ln (F' i) - ln (F i)))) <=
              sum n (fun i => F i / T * (ln T' - ln T) + (F' i / T' - F i / T))).
  { apply sum_le. intros i Hi. unfold where_. destruct (Rlt_dec 0 (F i)) as [P|NP].
    - pose proof (Hpos i Hi P) as P'. pose proof (ln_le_sub (F' i / F i * (T / T'))) as L.
      assert (0 < F' i / F i) by (apply Rdiv_lt_0_compat; auto). assert (0 < T / T') by (apply Rdiv_lt_0_compat; auto).
      assert (0 < F' i / F i * (T / T')) by (apply Rmult_lt_0_compat; auto). specialize (L H1).
      rewrite ln_mult, !ln_quot in L by (try assumption; auto).
      assert (W : 0 < F i / T) by (apply Rdiv_lt_0_compat; auto).
      apply (Rmult_le_compat_l (F i / T)) in L; [|lra].
      replace (F i / T * (F' i / F i * (T / T') - 1)) with (F' i / T' - F i / T) in L by (field; repeat split; lra). lra.
    - assert (F i = 0) by (pose proof (HF i Hi); lra). rewrite H.
      assert (0 <= F' i / T') by (apply Rmult_le_pos; [auto|left; now apply Rinv_0_lt_compat]). unfold Rdiv at 1 3. lra. }
  eapply Rle_trans; [exact A|]. rewrite sum_plus, sum_minus.
  replace (sum n (fun i => F i / T * (ln T' - ln T))) with ((ln T' - ln T) * (sum n F / T)).
  2:{ rewrite <- sum_div, <- sum_scal. apply sum_ext. intros; lra. }
  rewrite !sum_div. fold T T'. replace (T / T) with 1 by (field; lra). replace (T' / T') with 1 by (field; lra). lra.
Qed.

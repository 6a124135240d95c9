From Verif Require Import Base AccumModel AccumProofs FsmModel FsmSpec.
From Coq Require Import Reals Lra Permutation.
Open Scope R_scope.

(** ** Finding the next energy *)

Definition head_at (gs : list (list R)) (idx : list nat) (j : nat) (v : R) : Prop :=
  exists e i, nth_error gs j = Some e /\ nth_error idx j = Some i /\ nth_error e i = Some v.

Lemma head_at_S g gs i idx j v : head_at (g :: gs) (i :: idx) (S j) v <-> head_at gs idx j v.
Proof. unfold head_at. simpl. reflexivity. Qed.
Lemma head_at_0 g gs i idx v : head_at (g :: gs) (i :: idx) 0 v <-> nth_error g i = Some v.
Proof.
  unfold head_at. simpl. split.
  - intros (e & i' & E1 & E2 & E3). injection E1 as <-. injection E2 as <-. exact E3.
  - intros H. exists g, i. auto.
Qed.

Lemma scan_min_ok gs : forall idx low found, length idx = length gs ->
  exists l f, scan_min gs idx low found = Ok (l, f) /\ l <= low /\
    (forall j v, head_at gs idx j v -> l <= v) /\
    ((l = low /\ f = found) \/ (f = true /\ exists j, head_at gs idx j l)).
Proof.
  induction gs as [|g gs IH]; intros [|i idx] low found L; simpl in L; try discriminate.
  - exists low, found. split; [reflexivity|]. split; [lra|]. split; [|now left]. intros j v (e & i & E & _). destruct j; discriminate.
  - injection L as L. simpl. destruct (nth_error g i) as [v|] eqn:E.
    + destruct (Rltb_spec v low).
      * destruct (IH idx v true L) as (l & f & H1 & H2 & H3 & H4). exists l, f. split; [exact H1|]. split; [lra|]. split.
        { intros [|j] w Hw; [apply head_at_0 in Hw; rewrite E in Hw; injection Hw as <-; exact H2|rewrite head_at_S in Hw; exact (H3 j w Hw)]. }
        right. destruct H4 as [[-> ->]|(-> & j & Hj)]; (split; [reflexivity|]).
        { exists 0%nat. now apply head_at_0. } { exists (S j). now apply head_at_S. }
      * destruct (IH idx low found L) as (l & f & H1 & H2 & H3 & H4). exists l, f. split; [exact H1|]. split; [lra|]. split.
        { intros [|j] w Hw; [apply head_at_0 in Hw; rewrite E in Hw; injection Hw as <-; lra|rewrite head_at_S in Hw; exact (H3 j w Hw)]. }
        destruct H4 as [H4|(-> & j & Hj)]; [now left|right; split; auto; exists (S j); now apply head_at_S].
    + destruct (IH idx low found L) as (l & f & H1 & H2 & H3 & H4). exists l, f. split; [exact H1|]. split; [lra|]. split.
      { intros [|j] w Hw; [apply head_at_0 in Hw; congruence|rewrite head_at_S in Hw; exact (H3 j w Hw)]. }
      destruct H4 as [H4|(-> & j & Hj)]; [now left|right; split; auto; exists (S j); now apply head_at_S].
Qed.

Definition tagged (low tol : R) (e : list R) (i i' : nat) (o : option nat) : Prop :=
  (forall v, nth_error e i = Some v -> Rabs (low - v) < tol -> i' = S i /\ o = (if Nat.ltb (i + 1) (length e) then Some i else None)) /\
  ((forall v, nth_error e i = Some v -> ~ Rabs (low - v) < tol) -> i' = i /\ o = None).

Lemma tag_ok gs low tol : forall idx, length idx = length gs ->
  exists idx' ms, tag_matches gs idx low tol = Ok (idx', ms) /\ length idx' = length gs /\ length ms = length gs /\
    (forall j e i, nth_error gs j = Some e -> nth_error idx j = Some i ->
      exists i' o, nth_error idx' j = Some i' /\ nth_error ms j = Some o /\ tagged low tol e i i' o).
Proof.
  induction gs as [|g gs IH]; intros [|i idx] L; simpl in L; try discriminate.
  - exists [], []. repeat split; auto. intros [|j]; discriminate.
  - injection L as L. destruct (IH idx L) as (idx' & ms & H1 & H2 & H3 & H4). simpl. rewrite H1. simpl.
    assert (D : exists i' o, match nth_error g i with
      | Some v => if Rltb (Rabs (low - v)) tol then Ok (S i :: idx', (if Nat.ltb (i + 1) (length g) then Some i else None) :: ms)
                  else Ok (i :: idx', None :: ms)
      | None => Ok (i :: idx', None :: ms) end = Ok (i' :: idx', o :: ms) /\ tagged low tol g i i' o).
    { destruct (nth_error g i) as [v|] eqn:E.
      - destruct (Rltb_spec (Rabs (low - v)) tol).
        + do 2 eexists. split; [reflexivity|]. split; [auto|]. intros K. exfalso. apply (K v); auto.
        + do 2 eexists. split; [reflexivity|]. split; [|auto]. intros w Ew. rewrite E in Ew. injection Ew as <-. contradiction.
      - do 2 eexists. split; [reflexivity|]. split; [|auto]. intros w Ew. congruence. }
    destruct D as (i' & o & D1 & D2). exists (i' :: idx'), (o :: ms). split; [exact D1|]. split; [simpl; lia|]. split; [simpl; lia|].
    intros [|j] e k; simpl; intros E1 E2.
    + injection E1 as <-. injection E2 as <-. exists i', o. auto.
    + apply (H4 j e k E1 E2).
Qed.

(** ** The invariant of the merging loop *)

Section Merge.
Variable gs : list (list R).
Variable tol : R.
Hypothesis tol_pos : 0 < tol.
Hypothesis grids : forall g, In g gs -> grid_ok tol g.

Definition edge_of (x : R) : Prop := exists g, In g gs /\ In x g.

Lemma edge_pos x : edge_of x -> 0 < x < 10 ^ 32.
Proof. intros (g & Hg & Hx). apply (grids g Hg); auto. Qed.
Lemma gap j e i k x y : nth_error gs j = Some e -> (i < k)%nat -> nth_error e i = Some x -> nth_error e k = Some y -> x + tol <= y.
Proof. intros He. apply (grids e). eapply nth_error_In; eauto. Qed.

Record inv (idx : list nat) (es : list R) (rows : list (list (option nat))) : Prop := {
  i_len : length idx = length gs;
  i_bound : forall j e i, nth_error gs j = Some e -> nth_error idx j = Some i -> (i <= length e)%nat;
  i_rows : length rows = length es;
  i_sorted : forall k k' m m', (k < k')%nat -> nth_error es k = Some m -> nth_error es k' = Some m' -> m + tol <= m';
  i_edge : forall m, In m es -> edge_of m;
  i_done : forall j e i b x, nth_error gs j = Some e -> nth_error idx j = Some i -> nth_error e b = Some x -> (b < i)%nat ->
             exists m, In m es /\ merged_into tol m x;
  i_todo : forall j e i b x m, nth_error gs j = Some e -> nth_error idx j = Some i -> nth_error e b = Some x -> (i <= b)%nat ->
             In m es -> m + tol <= x;
  i_row : forall k m r, nth_error es k = Some m -> nth_error rows k = Some r ->
            length r = length gs /\
            forall j e, nth_error gs j = Some e -> exists o, nth_error r j = Some o /\
              forall b, o = Some b <-> ((S b < length e)%nat /\ exists x, nth_error e b = Some x /\ merged_into tol m x) }.

Fixpoint left_over (gs : list (list R)) (idx : list nat) : nat :=
  match gs, idx with g :: gs', i :: idx' => (length g - i + left_over gs' idx')%nat | _, _ => 0%nat end.

Lemma left_less (hs : list (list R)) : forall idx idx',
  length idx = length hs -> length idx' = length hs ->
  (forall j e i i', nth_error hs j = Some e -> nth_error idx j = Some i -> nth_error idx' j = Some i' -> (i <= i')%nat) ->
  (left_over hs idx' <= left_over hs idx)%nat /\
  ((exists j e i i', nth_error hs j = Some e /\ nth_error idx j = Some i /\ nth_error idx' j = Some i' /\ (i < i' /\ i < length e)%nat) ->
   (left_over hs idx' < left_over hs idx)%nat).
Proof.
  induction hs as [|h hs IH]; intros [|i idx] [|i' idx'] L L' H; simpl in L, L'; try discriminate.
  - split; [simpl; lia|]. intros (j & e & _ & _ & E & _). destruct j; discriminate.
  - injection L as L. injection L' as L'. simpl.
    destruct (IH idx idx' L L') as [I1 I2]. { intros j e k k' E1 E2 E3. apply (H (S j) e k k' E1 E2 E3). }
    pose proof (H 0%nat h i i' eq_refl eq_refl eq_refl) as H0. split; [lia|].
    intros ([|j] & e & k & k' & E1 & E2 & E3 & E4); simpl in E1, E2, E3.
    + injection E1 as <-. injection E2 as <-. injection E3 as <-. lia.
    + assert (left_over hs idx' < left_over hs idx)%nat; [|lia]. apply I2. exists j, e, k, k'. auto.
Qed.

Lemma nth_error_snoc {B} (l : list B) x k y : nth_error (l ++ [x]) k = Some y ->
  nth_error l k = Some y \/ (k = length l /\ y = x).
Proof.
  intros H. destruct (Nat.lt_ge_cases k (length l)) as [L|L].
  - left. now rewrite nth_error_app1 in H by auto.
  - right. rewrite nth_error_app2 in H by auto. destruct (k - length l)%nat as [|d] eqn:D.
    + injection H as <-. split; [lia|reflexivity].
    + simpl in H. destruct d; discriminate.
Qed.

Lemma idx_at (idx : list nat) j e : length idx = length gs -> nth_error gs j = Some e -> exists i, nth_error idx j = Some i.
Proof.
  intros L H. assert (j < length idx)%nat by (rewrite L; apply nth_error_Some; congruence).
  destruct (nth_error idx j) eqn:E; [eauto|]. apply nth_error_None in E. lia.
Qed.

(** One turn of the loop. *)
Lemma step_ok idx es rows ms : inv idx es rows ->
  (findMinAndMatches gs idx ms tol = Ok (-1, idx, ms) /\
   forall j e i, nth_error gs j = Some e -> nth_error idx j = Some i -> i = length e) \/
  exists low idx' ms', findMinAndMatches gs idx ms tol = Ok (low, idx', ms') /\ 0 < low /\
    inv idx' (es ++ [low]) (rows ++ [ms']) /\ (left_over gs idx' < left_over gs idx)%nat.
Proof.
  intros I. destruct (scan_min_ok gs idx (IZR (10 ^ 32)) false (i_len _ _ _ I)) as (l & f & E & Hl & Hmin & Hf).
  unfold findMinAndMatches. rewrite E. cbn [obind fst snd].
  destruct Hf as [[-> ->]|(-> & j0 & Hj0)].
  - left. split; [reflexivity|]. intros j e i Ee Ei. pose proof (i_bound _ _ _ I j e i Ee Ei) as B.
    destruct (Nat.eq_dec i (length e)) as [->|N]; auto. exfalso.
    destruct (nth_error e i) as [v|] eqn:Ev; [|apply nth_error_None in Ev; lia].
    assert (Hv : IZR (10 ^ 32) <= v). { apply (Hmin j v). exists e, i. auto. }
    assert (Hp : 0 < v < 10 ^ 32). { apply edge_pos. exists e. split; eapply nth_error_In; eauto. }
    change (10 ^ 32)%Z with (10 ^ Z.of_nat 32)%Z in Hv. rewrite <- pow_IZR in Hv. lra.
  - right. destruct (tag_ok gs l tol idx (i_len _ _ _ I)) as (idx' & ms' & T1 & T2 & T3 & T4). rewrite T1. cbn [obind fst snd].
    exists l, idx', ms'. split; [reflexivity|].
    destruct Hj0 as (e0 & i0 & G0 & X0 & V0).
    assert (P : 0 < l < 10 ^ 32). { apply edge_pos. exists e0. split; eapply nth_error_In; eauto. }
    split; [lra|].
    (* every edge that is left is at least [l] *)
    assert (M : forall j e i b x, nth_error gs j = Some e -> nth_error idx j = Some i -> nth_error e b = Some x -> (i <= b)%nat ->
                 exists v, nth_error e i = Some v /\ l <= v /\ (b = i /\ x = v \/ (i < b)%nat /\ v + tol <= x)).
    { intros j e i b x Ee Ei Ex Hb. destruct (nth_error e i) as [v|] eqn:Ev.
      - exists v. split; auto. split. { apply (Hmin j v). exists e, i. auto. }
        destruct (Nat.eq_dec b i) as [->|N]; [left; split; congruence|]. right. split; [lia|]. apply (gap j e i b); auto. lia.
      - apply nth_error_None in Ev. assert (b < length e)%nat by (apply nth_error_Some; congruence). lia. }
    assert (A : forall v, l <= v -> (Rabs (l - v) < tol <-> v < l + tol)).
    { intros v Hv. rewrite Rabs_minus_sym, Rabs_right by lra. lra. }
    split.
    + constructor.
      * exact T2.
      * intros j e i' Ee Ei'. destruct (idx_at idx j e (i_len _ _ _ I) Ee) as (i & Ei). destruct (T4 j e i Ee Ei) as (k & o & K1 & K2 & K3 & K4).
        rewrite K1 in Ei'. injection Ei' as <-. pose proof (i_bound _ _ _ I j e i Ee Ei) as B.
        destruct (nth_error e i) as [v|] eqn:Ev.
        { destruct (Rltb_spec (Rabs (l - v)) tol) as [Q|Q].
          - destruct (K3 v eq_refl Q) as [-> _]. assert (i < length e)%nat by (apply nth_error_Some; congruence). lia.
          - destruct K4 as [-> _]; auto. intros w Ew. injection Ew as <-. exact Q. }
        { destruct K4 as [-> _]; auto. intros w Ew. discriminate. }
      * rewrite !app_length. simpl. rewrite (i_rows _ _ _ I). reflexivity.
      * intros k k' m m' Hk E1 E2. apply nth_error_snoc in E1, E2. destruct E1 as [E1|[-> ->]].
        { destruct E2 as [E2|[-> ->]]; [apply (i_sorted _ _ _ I k k'); auto|].
          apply (i_todo _ _ _ I j0 e0 i0 i0 l m); auto. eapply nth_error_In; eauto. }
        { destruct E2 as [E2|[-> ->]]; [|lia]. assert (k' < length es)%nat by (apply nth_error_Some; congruence). lia. }
      * intros m Hm. apply in_app_iff in Hm. destruct Hm as [Hm|[<-|[]]]; [apply (i_edge _ _ _ I); auto|].
        exists e0. split; eapply nth_error_In; eauto.
      * intros j e i' b x Ee Ei' Ex Hb. destruct (idx_at idx j e (i_len _ _ _ I) Ee) as (i & Ei). destruct (T4 j e i Ee Ei) as (k & o & K1 & K2 & K3 & K4).
        rewrite K1 in Ei'. injection Ei' as <-.
        destruct (Nat.lt_ge_cases b i) as [Lb|Lb].
        { destruct (i_done _ _ _ I j e i b x Ee Ei Ex Lb) as (m & M1 & M2). exists m. split; auto. apply in_app_iff. auto. }
        destruct (M j e i b x Ee Ei Ex Lb) as (v & Ev & Hv & Hx).
        destruct (Rltb_spec (Rabs (l - v)) tol) as [Q|Q].
        { destruct (K3 v Ev Q) as [-> _]. assert (b = i) by lia. subst b. assert (x = v) by congruence. subst x.
          exists l. split; [apply in_app_iff; right; now left|]. apply A in Q; auto. split; auto. }
        { destruct K4 as [-> _]; [intros w Ew; assert (w = v) by congruence; now subst w|]. lia. }
      * intros j e i' b x m Ee Ei' Ex Hb Hm. destruct (idx_at idx j e (i_len _ _ _ I) Ee) as (i & Ei). destruct (T4 j e i Ee Ei) as (k & o & K1 & K2 & K3 & K4).
        rewrite K1 in Ei'. injection Ei' as <-.
        assert (Hi : (i <= k)%nat).
        { destruct (nth_error e i) as [v|] eqn:Ev.
          - destruct (Rltb_spec (Rabs (l - v)) tol) as [Q|Q]; [destruct (K3 v eq_refl Q); lia|]. destruct K4; [|lia]. intros w Ew. now injection Ew as <-.
          - destruct K4; [|lia]. discriminate. }
        apply in_app_iff in Hm. destruct Hm as [Hm|[<-|[]]]; [apply (i_todo _ _ _ I j e i b x m); auto; lia|].
        destruct (M j e i b x Ee Ei Ex) as (v & Ev & Hv & Hx); [lia|].
        destruct (Rltb_spec (Rabs (l - v)) tol) as [Q|Q].
        { destruct (K3 v Ev Q) as [-> _]. destruct Hx as [[-> _]|[_ Hx]]; [lia|lra]. }
        { assert (~ v < l + tol). { intros C. apply Q. apply A; auto. } destruct Hx as [[_ ->]|[_ Hx]]; lra. }
      * intros k m r E1 E2. apply nth_error_snoc in E1. destruct E1 as [E1|[-> ->]].
        { rewrite nth_error_app1 in E2. 2:{ rewrite (i_rows _ _ _ I). apply nth_error_Some. congruence. } apply (i_row _ _ _ I k m r E1 E2). }
        rewrite <- (i_rows _ _ _ I), nth_error_app2, Nat.sub_diag in E2 by lia. injection E2 as <-. split; [exact T3|].
        intros j e Ee. destruct (idx_at idx j e (i_len _ _ _ I) Ee) as (i & Ei). destruct (T4 j e i Ee Ei) as (k & o & K1 & K2 & K3 & K4).
        exists o. split; [exact K2|]. intros b.
        assert (U : forall x, nth_error e b = Some x -> merged_into tol l x -> b = i /\ Rabs (l - x) < tol).
        { intros x Ex [B1 B2]. destruct (Nat.lt_ge_cases b i) as [Lb|Lb].
          - destruct (i_done _ _ _ I j e i b x Ee Ei Ex Lb) as (m & M1 & M2 & M3).
            pose proof (i_todo _ _ _ I j0 e0 i0 i0 l m G0 X0 V0 (le_n _) M1). lra.
          - destruct (M j e i b x Ee Ei Ex Lb) as (v & Ev & Hv & [[-> ->]|[_ Hx]]); [|lra]. split; auto. apply A; auto. }
        destruct (nth_error e i) as [v|] eqn:Ev.
        { destruct (Rltb_spec (Rabs (l - v)) tol) as [Q|Q].
          - destruct (K3 v eq_refl Q) as [_ ->]. destruct (Nat.ltb_spec (i + 1) (length e)) as [Lt|Ge].
            + split.
              * intros H. injection H as <-. split; [lia|]. exists v. split; auto. destruct (M j e i i v Ee Ei Ev (le_n _)) as (v' & Ev' & Hv & _).
                assert (v' = v) by congruence. subst v'. apply A in Q; auto. split; auto.
              * intros (Hb & x & Ex & Hx). destruct (U x Ex Hx) as [-> _]. reflexivity.
            + split; [discriminate|]. intros (Hb & x & Ex & Hx). destruct (U x Ex Hx) as [-> _]. lia.
          - destruct K4 as [_ ->]; [intros w Ew; now injection Ew as <-|]. split; [discriminate|]. intros (Hb & x & Ex & Hx).
            destruct (U x Ex Hx) as [-> Q']. assert (x = v) by congruence. subst x. contradiction. }
        { destruct K4 as [_ ->]; [discriminate|]. split; [discriminate|]. intros (Hb & x & Ex & Hx). destruct (U x Ex Hx) as [-> _]. congruence. }
    + destruct (T4 j0 e0 i0 G0 X0) as (k & o & K1 & K2 & K3 & K4).
      assert (Q : Rabs (l - l) < tol). { rewrite Rminus_diag_eq, Rabs_R0 by reflexivity. exact tol_pos. }
      destruct (K3 l V0 Q) as [-> _].
      apply (left_less gs idx idx' (i_len _ _ _ I) T2).
      * intros j e i i' Ee Ei Ei'. destruct (T4 j e i Ee Ei) as (k & o' & J1 & J2 & J3 & J4). rewrite J1 in Ei'. injection Ei' as <-.
        destruct (nth_error e i) as [v|] eqn:Ev.
        { destruct (Rltb_spec (Rabs (l - v)) tol) as [Q'|Q']; [destruct (J3 v eq_refl Q'); lia|]. destruct J4; [|lia]. intros w Ew. now injection Ew as <-. }
        { destruct J4; [|lia]. discriminate. }
      * exists j0, e0, i0, (S i0). split; auto. split; auto. split; auto. split; [lia|]. apply nth_error_Some. congruence.
Qed.

Lemma loop_ok : forall fuel idx es rows ms next, 0 <= next -> inv idx es rows -> (left_over gs idx < fuel)%nat ->
  exists es' rows' idx', merge_loop fuel gs tol idx ms next es rows = Some (Ok (es', rows')) /\ inv idx' es' rows' /\
    forall j e i, nth_error gs j = Some e -> nth_error idx' j = Some i -> i = length e.
Proof.
  induction fuel as [|fuel IH]; intros idx es rows ms next Hn I L; [lia|]. simpl.
  destruct (Rleb_spec 0 next) as [_|C]; [|lra].
  destruct (step_ok idx es rows ms I) as [[E D]|(low & idx' & ms' & E & P & I' & L')]; rewrite E.
  - destruct (Rltb_spec 0 (-1)); [lra|]. exists es, rows, idx. split; [|auto].
    destruct fuel; simpl; (destruct (Rleb_spec 0 (-1)); [lra|reflexivity]).
  - destruct (Rltb_spec 0 low); [|lra]. apply IH; auto; [lra|lia].
Qed.

Lemma inv_start : inv (repeat 0%nat (length gs)) [] [].
Proof.
  assert (R0 : forall j i, nth_error (repeat 0%nat (length gs)) j = Some i -> i = 0%nat).
  { intros j i H. apply nth_error_In, repeat_spec in H. exact H. }
  constructor; auto.
  - apply repeat_length.
  - intros j e i _ H. apply R0 in H. lia.
  - intros k k' m m' _ H. destruct k; discriminate H.
  - intros m [].
  - intros j e i b x _ H _ Hb. apply R0 in H. lia.
  - intros j e i b x m _ _ _ _ [].
  - intros k m r H. destruct k; discriminate H.
Qed.

Lemma merge_ok : exists N, forall fuel, (N <= fuel)%nat ->
  exists es rows idx, merge_energies fuel gs tol = Some (Ok (es, rows)) /\ inv idx es rows /\
    forall j e i, nth_error gs j = Some e -> nth_error idx j = Some i -> i = length e.
Proof.
  exists (S (left_over gs (repeat 0%nat (length gs)))). intros fuel Hf. apply loop_ok; [lra|apply inv_start|lia].
Qed.

End Merge.

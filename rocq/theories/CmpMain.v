From Coq Require Import Reals String Lra.
From Verif Require Import Base DerivSpec UnbinGrad CmpModel CmpSpec CmpProofs CmpSet.
Local Open Scope string_scope.
Local Open Scope list_scope.

Definition mO (cn : comp * string) := mask (TO (snd cn)) (c_srcs (fst cn)).
Definition mS (norm : string) (cn : comp * string) := mask (TS (snd cn) norm) (c_srcs (fst cn)).
Definition mN (norm : string) (cn : comp * string) := mask (TN (snd cn) norm) (c_srcs (fst cn)).
Definition vs (cn : comp * string) := vals_of (c_srcs (fst cn)).

(** a component the calls work on: the shape parameters of its common source are [names] *)
Definition good1 (norm : string) (names : list string) (cn : comp * string) : Prop :=
  NoDup (map fst (c_srcs (fst cn))) /\
  exists s, find_src (snd cn) (c_srcs (fst cn)) = Some s /\ NoDup (map p_name (sp_pars s)) /\ sp_norm s = norm /\
    In norm (map p_name (sp_pars s)) /\ map p_name (filter (shapeT norm) (sp_pars s)) = names.

Lemma find_in name : forall l s, find_src name l = Some s -> In (name, s) l.
Proof. induction l as [|[n t] l IH]; simpl; intros s H; [discriminate|]. destruct (String.eqb n name) eqn:E; auto. apply String.eqb_eq in E. left. congruence. Qed.
Lemma in_find name : forall l s, NoDup (map fst l) -> In (name, s) l -> find_src name l = Some s.
Proof.
  induction l as [|[n t] l IH]; simpl; intros s ND H; [tauto|]. inversion ND as [|? ? NI ND']; subst. destruct H as [H|H].
  - injection H as -> ->. now rewrite String.eqb_refl.
  - destruct (String.eqb n name) eqn:E; auto. apply String.eqb_eq in E. subst. exfalso. apply NI. apply (in_map fst) in H. auto.
Qed.

(** first step: everything except the common sources *)
Fixpoint rel1 (l l' : list (comp * string)) (O : list R) : Prop :=
  match l, l' with
  | [], [] => True
  | cn :: r, cn' :: r' =>
      (exists s', cn' = (with_srcs (fst cn) s', snd cn) /\ map stag s' = map stag (c_srcs (fst cn)) /\
        vals_of s' = fill (mO cn) (vs cn) (firstn (count (mO cn)) O) /\
        find_src (snd cn) s' = find_src (snd cn) (c_srcs (fst cn))) /\
      rel1 r r' (skipn (count (mO cn)) O)
  | _, _ => False
  end.

Definition total_count (f : comp * string -> list bool) (l : list (comp * string)) : nat := count (concat (map f l)).

Lemma total_cons f cn l : total_count f (cn :: l) = count (f cn) + total_count f l.
Proof. unfold total_count. simpl. now rewrite count_app. Qed.

Lemma set_others_all_ok : forall l vals, total_count mO l <= length vals ->
  exists l', set_others_all l vals = Ok (l', skipn (total_count mO l) vals) /\ rel1 l l' vals.
Proof.
  induction l as [|[c n] l IH]; intros vals H.
  - exists []. simpl. auto.
  - rewrite total_cons in *. unfold mO at 1 in H. cbn [fst snd] in H. cbn [set_others_all].
    destruct (set_others_ok n (c_srcs c) vals ltac:(lia)) as (s' & A & B & C & D). rewrite A. cbn [obind fst snd].
    destruct (IH (skipn (count (mask (TO n) (c_srcs c))) vals)) as (l' & A' & B'). { rewrite skipn_length. lia. }
    rewrite A'. cbn [obind fst snd]. rewrite skipn_skip. eexists; split; [reflexivity|]. simpl. split.
    + exists s'. repeat split; auto.
    + exact B'.
Qed.

(** second step: the common sources *)
Fixpoint rel2 (norm : string) (l l' : list (comp * string)) (Sv N : list R) : Prop :=
  match l, l' with
  | [], [] => True
  | cn :: r, cn' :: r' =>
      (exists s', cn' = (with_srcs (fst cn) s', snd cn) /\ map stag s' = map stag (c_srcs (fst cn)) /\
        vals_of s' = fill (mN norm cn) (fill (mS norm cn) (vs cn) Sv) (firstn (count (mN norm cn)) N)) /\
      rel2 norm r r' Sv (skipn (count (mN norm cn)) N)
  | _, _ => False
  end.

Lemma filter_count {A} (t : A -> bool) l : length (filter t l) = count (map t l).
Proof. unfold count. induction l as [|a l IH]; simpl; auto. destruct (t a); simpl; auto. Qed.

Lemma ptags_map {A} (f : string -> bool -> A) l l' : ptags l' = ptags l -> map (fun p => f (p_name p) (p_free p)) l' = map (fun p => f (p_name p) (p_free p)) l.
Proof. revert l'. induction l as [|p l IH]; intros [|q l'] H; unfold ptags in *; simpl in *; try discriminate; auto. injection H as -> -> H. f_equal. auto. Qed.

Lemma ptags_names l l' : ptags l' = ptags l -> map p_name l' = map p_name l.
Proof. exact (ptags_map (fun a _ => a) l l'). Qed.

Lemma ptags_filter (f : string -> bool -> bool) l l' : ptags l' = ptags l ->
  map p_name (filter (fun p => f (p_name p) (p_free p)) l') = map p_name (filter (fun p => f (p_name p) (p_free p)) l).
Proof.
  revert l'. induction l as [|p l IH]; intros [|q l'] H; unfold ptags in *; simpl in *; try discriminate; auto. injection H as A B H. rewrite A, B.
  destruct (f (p_name p) (p_free p)); simpl; [rewrite A; f_equal|]; apply IH; exact H.
Qed.

Lemma put_put name a b : forall l, put_src name b (put_src name a l) = put_src name b l.
Proof. induction l as [|[n t] l IH]; simpl; auto. destruct (String.eqb n name) eqn:E; simpl; rewrite E; auto. now rewrite IH. Qed.

Lemma put_names name a : forall l, map fst (put_src name a l) = map fst l.
Proof. induction l as [|[n t] l IH]; simpl; auto. destruct (String.eqb n name); simpl; auto. now rewrite IH. Qed.

Lemma TS_t name norm p : TS name norm name (p_name p) (p_free p) = shapeT norm p.
Proof. unfold TS, shapeT. now rewrite String.eqb_refl, andb_true_r. Qed.
Lemma TN_t name norm p : TN name norm name (p_name p) (p_free p) = normT norm p.
Proof. unfold TN, normT. now rewrite String.eqb_refl, andb_true_r. Qed.
Lemma TS_no name norm n a b : n <> name -> TS name norm n a b = false.
Proof. intros H. unfold TS. apply String.eqb_neq in H. rewrite H. now rewrite andb_false_r. Qed.
Lemma TN_no name norm n a b : n <> name -> TN name norm n a b = false.
Proof. intros H. unfold TN. apply String.eqb_neq in H. rewrite H. now rewrite andb_false_r. Qed.

(** counts of the marks of a component *)
Lemma count_common name T (t : par -> bool) s : (forall p, T name (p_name p) (p_free p) = t p) -> (forall n a b, n <> name -> T n a b = false) ->
  forall l, NoDup (map fst l) -> find_src name l = Some s -> count (mask T l) = count (map t (sp_pars s)).
Proof.
  intros Tt Tn l ND HF.
  destruct (put_fill name T t s s (pick (map t (sp_pars s)) (map p_val (sp_pars s))) Tt Tn eq_refl eq_refl eq_refl) with (l := l) as (_ & _ & _ & E); auto.
  - now rewrite fill_pick.
  - rewrite pick_length; auto. now rewrite !map_length.
  - rewrite E, pick_length; auto. now rewrite !map_length.
Qed.

Lemma set_common_ok norm names : forall l Sv N, List.Forall (good1 norm names) l -> length Sv = length names ->
  total_count (mN norm) l <= length N ->
  exists l', set_common norm (combine names Sv) l N = Ok l' /\ rel2 norm l l' Sv N.
Proof.
  induction l as [|[c n] l IH]; intros Sv N HG HS HN.
  - exists []. simpl. auto.
  - inversion HG as [|? ? G1 GR]; subst. destruct G1 as (ND & s & HF & NDp & Hn & HI & Hsh). cbn [fst snd] in *.
    rewrite total_cons in HN. cbn [set_common]. unfold common. cbn [fst snd]. rewrite HF. cbn [obind].
    rewrite set_shape_eq.
    destruct (set_shape_ok norm (sp_pars s) Sv NDp) as (p1 & A1 & B1 & C1). { rewrite HS, <- Hsh. now rewrite map_length. }
    rewrite Hsh in A1. rewrite A1. cbn [obind]. set (s1 := mk_spec p1 (sp_norm s) (sp_kind s)).
    assert (NDp1 : NoDup (map p_name p1)) by (rewrite (ptags_names _ _ B1); auto).
    assert (HI1 : In norm (map p_name p1)) by (rewrite (ptags_names _ _ B1); auto).
    destruct (norm_par_find norm s1 NDp1 Hn HI1) as (np & A2 & B2 & C2 & D2 & _). rewrite A2. cbn [obind].
    destruct (put_fill n (TS n norm) (shapeT norm) s s1 Sv (TS_t n norm) (TS_no n norm) B1 eq_refl eq_refl C1) with (l := c_srcs c) as (P1 & P2 & P3 & P4); auto.
    { rewrite <- filter_count, HS, <- Hsh. now rewrite map_length. }
    assert (CN : count (mask (TN n norm) (c_srcs c)) = if p_free np then 1 else 0).
    { rewrite <- (mask_tags (TN n norm) _ _ P2). rewrite (count_common n (TN n norm) (normT norm) s1 (TN_t n norm) (TN_no n norm)); auto.
      now rewrite put_names. }
    assert (HNn : exists s2, (if p_free np then match N with [] => UB | v :: w => obind (set_sp norm v s1) (fun s2 => Ok (s2, w)) end else Ok (s1, N)) = Ok (s2, skipn (count (mask (TN n norm) (c_srcs c))) N) /\
       vals_of (put_src n s2 (c_srcs c)) = fill (mask (TN n norm) (c_srcs c)) (fill (mask (TS n norm) (c_srcs c)) (vals_of (c_srcs c)) Sv) (firstn (count (mask (TN n norm) (c_srcs c))) N) /\
       map stag (put_src n s2 (c_srcs c)) = map stag (c_srcs c)).
    { unfold mN at 1 in HN. cbn [fst snd] in HN. rewrite CN in *. destruct (p_free np) eqn:EF.
      - destruct N as [|v w]; simpl in HN; [lia|]. destruct (set_norm_ok norm v p1 np NDp1 B2 C2 EF) as (p2 & A3 & B3 & C3).
        unfold set_sp. cbn [s1 sp_pars]. rewrite A3. cbn [obind]. exists (mk_spec p2 (sp_norm s) (sp_kind s)). split; [reflexivity|].
        destruct (put_fill n (TN n norm) (normT norm) s1 (mk_spec p2 (sp_norm s) (sp_kind s)) [v] (TN_t n norm) (TN_no n norm)) with (l := put_src n s1 (c_srcs c)) as (Q1 & Q2 & Q3 & Q4); auto.
        { now rewrite put_names. }
        rewrite put_put in *. rewrite Q2. split; auto. rewrite Q1, P1, (mask_tags (TN n norm) _ _ P2). reflexivity.
      - exists s1. split; [reflexivity|]. split; auto. rewrite P1, (fill_none (mask (TN n norm) (c_srcs c))); auto. }
    destruct HNn as (s2 & A3 & B3 & C3). cbn [sp_norm s1] in A3. rewrite A3. cbn [obind fst snd].
    destruct (IH Sv (skipn (count (mask (TN n norm) (c_srcs c))) N) GR HS) as (l' & A4 & B4).
    { rewrite skipn_length. unfold mN at 1 in HN. cbn [fst snd] in HN. lia. }
    rewrite A4. cbn [obind]. eexists; split; [reflexivity|]. simpl. split; [|exact B4].
    exists (put_src n s2 (c_srcs c)). repeat split; auto.
Qed.

(** the two steps together *)
Fixpoint rel (norm : string) (l l' : list (comp * string)) (O Sv N : list R) : Prop :=
  match l, l' with
  | [], [] => True
  | cn :: r, cn' :: r' =>
      (exists s', cn' = (with_srcs (fst cn) s', snd cn) /\ map stag s' = map stag (c_srcs (fst cn)) /\
        vals_of s' = fill (mN norm cn) (fill (mS norm cn) (fill (mO cn) (vs cn) (firstn (count (mO cn)) O)) Sv) (firstn (count (mN norm cn)) N)) /\
      rel norm r r' (skipn (count (mO cn)) O) Sv (skipn (count (mN norm cn)) N)
  | _, _ => False
  end.

Lemma rel_compose norm : forall l l1 l2 O Sv N, rel1 l l1 O -> rel2 norm l1 l2 Sv N -> rel norm l l2 O Sv N.
Proof.
  induction l as [|cn l IH]; intros [|cn1 l1] [|cn2 l2] O Sv N H1 H2; simpl in *; try tauto.
  destruct H1 as [(s1 & A1 & B1 & C1 & D1) H1], H2 as [(s2 & A2 & B2 & C2) H2]. subst cn1. cbn [fst snd with_srcs c_srcs] in *.
  unfold mN, mS, vs in *. cbn [fst snd with_srcs c_srcs] in *. rewrite ?(mask_tags (TS (snd cn) norm) _ _ B1), ?(mask_tags (TN (snd cn) norm) _ _ B1) in C2, H2. split.
  - exists s2. subst cn2. repeat split; auto.
    + now rewrite B2.
    + rewrite C2, (mask_tags (TS (snd cn) norm) _ _ B1). now rewrite C1.
  - eapply IH; eauto.
Qed.

Lemma good_tags norm names cn s' : map stag s' = map stag (c_srcs (fst cn)) -> good1 norm names cn -> good1 norm names (with_srcs (fst cn) s', snd cn).
Proof.
  intros HT (ND & s & HF & NDp & Hn & HI & Hsh). cbn [fst snd with_srcs c_srcs] in *.
  assert (F : exists s1, find_src (snd cn) s' = Some s1 /\ ptags (sp_pars s1) = ptags (sp_pars s) /\ sp_norm s1 = sp_norm s).
  { clear -HT HF. revert s' HT HF. generalize (c_srcs (fst cn)). induction l as [|[n t] l IH]; intros [|[n' t'] l'] HT HF; simpl in *; try discriminate.
    injection HT as E1 E2 E3 E4 E5. simpl in *. subst n'. destruct (String.eqb n (snd cn)); [|auto]. injection HF as ->. eauto. }
  destruct F as (s1 & F1 & F2 & F3). split.
  - cbn [fst snd with_srcs c_srcs]. replace (map fst s') with (map fst (c_srcs (fst cn))); auto.
    clear -HT. revert s' HT. generalize (c_srcs (fst cn)). induction l as [|[n t] l IH]; intros [|[n' t'] l'] HT; simpl in *; try discriminate; auto.
    injection HT as E1 E2 E3 E4 E5. simpl in *. subst. f_equal. auto.
  - exists s1. cbn [fst snd with_srcs c_srcs]. rewrite (ptags_names _ _ F2), F3. repeat split; auto. rewrite <- Hsh.
    apply (ptags_filter (fun a b => (b && negb (String.eqb a norm))%bool)). auto.
Qed.

Lemma rel1_good norm names : forall l l' O, rel1 l l' O -> List.Forall (good1 norm names) l -> List.Forall (good1 norm names) l'.
Proof.
  induction l as [|cn l IH]; intros [|cn' l'] O H HG; simpl in *; try tauto. inversion HG; subst. destruct H as [(s' & -> & B & _) H]. constructor.
  - now apply good_tags.
  - eapply IH; eauto.
Qed.

Lemma read_shape_ok : forall names vals, length names <= length vals ->
  read_shape names vals = Ok (combine names (firstn (length names) vals), skipn (length names) vals).
Proof. induction names as [|n names IH]; intros [|v vals] H; simpl in *; auto; try lia. rewrite IH by lia. auto. Qed.

Lemma rel1_total norm : forall l l' O, rel1 l l' O -> total_count (mN norm) l' = total_count (mN norm) l.
Proof.
  induction l as [|cn l IH]; intros [|cn' l'] O H; simpl in *; try tauto. destruct H as [(s' & -> & B & _) H]. rewrite !total_cons. f_equal.
  - unfold mN. cbn [fst snd with_srcs c_srcs]. now rewrite (mask_tags _ _ _ B).
  - eapply IH; eauto.
Qed.

Lemma shape_free_eq norm s : shape_free norm s = filter (shapeT norm) (sp_pars s).
Proof. unfold shape_free, free_pars, shapeT. induction (sp_pars s) as [|p l IH]; simpl; auto. destruct (p_free p); simpl; auto. destruct (negb _); simpl; [f_equal|]; exact IH. Qed.

Section Composite.
Variable k : composite.
Variable names : list string.
Hypothesis Hgood : List.Forall (good1 (k_norm k) names) (k_comps k).
Hypothesis Hne : k_comps k <> [].
Notation norm := (k_norm k).
Notation nO := (total_count mO (k_comps k)).
Notation nS := (length names).
Notation nN := (total_count (mN norm) (k_comps k)).

Lemma set_ok vals : nO + nS + nN <= length vals ->
  exists l, setFreeParamValues vals k = Ok (syncParams (with_comps k l)) /\
    rel norm (k_comps k) l vals (firstn nS (skipn nO vals)) (skipn (nO + nS) vals).
Proof.
  intros HL. unfold setFreeParamValues. destruct (k_comps k) as [|cn l0] eqn:E; [tauto|]. rewrite <- E in *.
  destruct (set_others_all_ok (k_comps k) vals ltac:(lia)) as (l1 & A1 & B1). rewrite A1. cbn [obind fst snd].
  assert (G1 : good1 norm names cn). { rewrite E in Hgood. now inversion Hgood. }
  destruct G1 as (ND & s & HF & NDp & Hn & HI & Hsh). unfold common. rewrite HF. cbn [obind]. rewrite shape_free_eq, Hsh.
  rewrite read_shape_ok by (rewrite skipn_length; lia). cbn [obind fst snd].
  destruct (set_common_ok norm names l1 (firstn nS (skipn nO vals)) (skipn nS (skipn nO vals))) as (l2 & A2 & B2).
  - eapply rel1_good; eauto.
  - rewrite firstn_length, skipn_length. lia.
  - rewrite (rel1_total norm _ _ _ B1), !skipn_length. lia.
  - rewrite A2. cbn [obind]. exists l2. split; auto. rewrite skipn_skip in B2. eapply rel_compose; eauto.
Qed.

End Composite.

(** what getFreeParams lists *)
Lemma other_free_pick cn : other_free cn = pick (mO cn) (all_pars (c_srcs (fst cn))).
Proof.
  unfold other_free, mO, mask, all_pars. induction (c_srcs (fst cn)) as [|[n s] l IH]; simpl; auto. rewrite IH.
  assert (P : forall m1 m2 (a b : list par), length m1 = length a -> pick (m1 ++ m2) (a ++ b) = pick m1 a ++ pick m2 b).
  { induction m1 as [|[] m1 IHm]; intros m2 [|x a] b H; simpl in *; try discriminate; auto. f_equal. auto. }
  rewrite P by (unfold smask; now rewrite map_length). f_equal. unfold smask, TO, free_pars. simpl. clear IH P.
  destruct (String.eqb n (snd cn)); induction (sp_pars s) as [|p q IH]; simpl; auto.
  - now rewrite andb_false_r.
  - rewrite andb_true_r. destruct (p_free p); [f_equal|]; auto.
Qed.

Lemma pick_app {A} : forall m1 m2 (a b : list A), length m1 = length a -> pick (m1 ++ m2) (a ++ b) = pick m1 a ++ pick m2 b.
Proof. induction m1 as [|[] m1 IHm]; intros m2 [|x a] b H; simpl in *; try discriminate; auto. f_equal. auto. Qed.

Lemma pick_none {A} : forall m (a : list A), count m = 0 -> pick m a = [].
Proof. induction m as [|[] m IH]; intros [|x a] H; unfold count in *; simpl in *; try discriminate; auto. Qed.

Lemma pick_common name T (t : par -> bool) s : (forall p, T name (p_name p) (p_free p) = t p) -> (forall n a b, n <> name -> T n a b = false) ->
  forall l, NoDup (map fst l) -> find_src name l = Some s -> pick (mask T l) (all_pars l) = filter t (sp_pars s).
Proof.
  intros Tt Tn.
  assert (Z : forall l, ~ In name (map fst l) -> count (mask T l) = 0).
  { unfold mask. induction l as [|[n r] l IH]; intros NI; simpl in *; auto. rewrite count_app, IH by tauto. unfold smask, count. simpl. rewrite Nat.add_0_r.
    induction (sp_pars r); simpl; auto. now rewrite Tn by tauto. }
  induction l as [|[n r] l IH]; intros ND HF; simpl in *; [discriminate|]. inversion ND as [|? ? NI ND']; subst.
  unfold mask, all_pars in *. simpl. rewrite pick_app by (unfold smask; now rewrite map_length). fold (mask T l).
  destruct (String.eqb n name) eqn:E.
  - apply String.eqb_eq in E. subst n. injection HF as ->. rewrite (pick_none (mask T l)) by (apply Z; auto). rewrite app_nil_r. unfold smask. simpl.
    clear -Tt. induction (sp_pars s) as [|p l IH]; simpl; auto. rewrite Tt. destruct (t p); [f_equal|]; auto.
  - apply String.eqb_neq in E. rewrite (pick_none (smask T (n, r))).
    + simpl. apply IH; auto.
    + unfold smask, count. simpl. induction (sp_pars r); simpl; auto. now rewrite Tn.
Qed.

Lemma pick_filter {A} (t : A -> bool) : forall l, pick (map t l) l = filter t l.
Proof. induction l as [|a l IH]; simpl; auto. destruct (t a); [f_equal|]; auto. Qed.

Lemma norms_ok norm names : forall l, List.Forall (good1 norm names) l ->
  norms_free l = Ok (concat (map (fun cn => pick (mN norm cn) (all_pars (c_srcs (fst cn)))) l)).
Proof.
  induction l as [|cn l IH]; intros HG; simpl; auto. inversion HG as [|? ? G1 GR]; subst. destruct G1 as (ND & s & HF & NDp & Hn & HI & Hsh).
  unfold common. rewrite HF. cbn [obind]. destruct (norm_par_find norm s NDp Hn HI) as (np & A & B & C & D & E). rewrite A. cbn [obind]. rewrite IH by auto. cbn [obind].
  assert (PK : pick (mN norm cn) (all_pars (c_srcs (fst cn))) = filter (normT norm) (sp_pars s)) by (apply (pick_common (snd cn) (TN (snd cn) norm) (normT norm) s (TN_t _ _) (TN_no _ _)); auto).
  rewrite PK, <- pick_filter, E.
  destruct (p_free np); auto.
Qed.

Lemma pick_map {A B} (f : A -> B) : forall m l, map f (pick m l) = pick m (map f l).
Proof. induction m as [|[] m IH]; intros [|a l]; simpl; auto. f_equal. auto. Qed.

Lemma concat_map_vals (f : comp * string -> list bool) l : map p_val (concat (map (fun cn => pick (f cn) (all_pars (c_srcs (fst cn)))) l)) = concat (map (fun cn => pick (f cn) (vs cn)) l).
Proof. induction l as [|cn l IH]; simpl; auto. rewrite map_app, IH, pick_map. reflexivity. Qed.

Lemma get_ok k names cn r : k_comps k = cn :: r -> List.Forall (good1 (k_norm k) names) (k_comps k) ->
  exists l, getFreeParams k = Ok l /\
    map p_val l = concat (map (fun cn => pick (mO cn) (vs cn)) (k_comps k)) ++ pick (mS (k_norm k) cn) (vs cn) ++ concat (map (fun cn => pick (mN (k_norm k) cn) (vs cn)) (k_comps k)).
Proof.
  intros E HG. unfold getFreeParams. rewrite E. rewrite <- E. assert (G1 : good1 (k_norm k) names cn). { rewrite E in HG. now inversion HG. }
  destruct G1 as (ND & s & HF & NDp & Hn & HI & Hsh). unfold common. rewrite HF. cbn [obind]. rewrite (norms_ok _ _ _ HG). cbn [obind].
  eexists; split; [reflexivity|]. rewrite !map_app. rewrite concat_map_vals. f_equal; [|f_equal].
  - rewrite <- concat_map_vals. f_equal. f_equal. apply map_ext. intros x. apply other_free_pick.
  - rewrite shape_free_eq. unfold mS, vs, vals_of. rewrite <- (pick_common (snd cn) (TS (snd cn) (k_norm k)) (shapeT (k_norm k)) s (TS_t _ _) (TS_no _ _) (c_srcs (fst cn)) ND HF). apply pick_map.
Qed.

Lemma count_ok norm names : forall l, List.Forall (good1 norm names) l -> forall b,
  count_loop norm b l = Ok (total_count mO l + (if b then match l with [] => 0 | _ => length names end else 0) + total_count (mN norm) l).
Proof.
  induction l as [|cn l IH]; intros HG b; simpl. { unfold total_count. simpl. destruct b; auto. }
  inversion HG as [|? ? G1 GR]; subst. destruct G1 as (ND & s & HF & NDp & Hn & HI & Hsh).
  unfold common. rewrite HF. cbn [obind]. destruct (norm_par_find norm s NDp Hn HI) as (np & A & B & C & D & E). rewrite A. cbn [obind]. rewrite (IH GR false). cbn [obind].
  rewrite !total_cons. f_equal. rewrite other_free_pick, pick_length, shape_free_eq, <- Hsh, map_length.
  - unfold mN. rewrite (count_common (snd cn) (TN (snd cn) norm) (normT norm) s (TN_t _ _) (TN_no _ _)) by auto. rewrite D. destruct b, (p_free np); lia.
  - unfold mO. rewrite mask_length. unfold vals_of. now rewrite map_length.
Qed.

(** after setting, the marked values are those given *)
Lemma rel_masks norm cn s' : map stag s' = map stag (c_srcs (fst cn)) -> let cn' := (with_srcs (fst cn) s', snd cn) in mO cn' = mO cn /\ mS norm cn' = mS norm cn /\ mN norm cn' = mN norm cn.
Proof. intros H. simpl. unfold mO, mS, mN. cbn [fst snd with_srcs c_srcs]. rewrite !(mask_tags _ _ _ H). auto. Qed.

Lemma picks norm cn o s n : length o = count (mO cn) -> length s = count (mS norm cn) -> length n = count (mN norm cn) ->
  let w := fill (mN norm cn) (fill (mS norm cn) (fill (mO cn) (vs cn) o) s) n in
  pick (mO cn) w = o /\ pick (mS norm cn) w = s /\ pick (mN norm cn) w = n.
Proof.
  intros Ho Hs Hn w. unfold w. assert (LO : length (mO cn) = length (vs cn)) by apply mask_length. assert (LS : length (mS norm cn) = length (vs cn)) by apply mask_length. assert (LN : length (mN norm cn) = length (vs cn)) by apply mask_length.
  assert (DOS : disjoint (mO cn) (mS norm cn)) by (apply mask_dis; intros; apply dis_OS).
  assert (DON : disjoint (mO cn) (mN norm cn)) by (apply mask_dis; intros; apply dis_ON).
  assert (DSN : disjoint (mS norm cn) (mN norm cn)) by (apply mask_dis; intros; apply dis_SN).
  repeat split.
  - rewrite (pick_fill_dis _ (mN norm cn)), (pick_fill_dis _ (mS norm cn)); auto; rewrite ?fill_length; auto. apply pick_fill; auto.
  - rewrite pick_fill_dis; auto; rewrite ?fill_length; auto. apply pick_fill; rewrite ?fill_length; auto.
  - apply pick_fill; rewrite ?fill_length; auto.
Qed.

Lemma good_counts norm names cn : good1 norm names cn -> count (mS norm cn) = length names.
Proof.
  intros (ND & s & HF & NDp & Hn & HI & Hsh). unfold mS. rewrite (count_common (snd cn) (TS (snd cn) norm) (shapeT norm) s (TS_t _ _) (TS_no _ _)) by auto.
  rewrite <- filter_count, <- Hsh. now rewrite map_length.
Qed.

Lemma firstn_app_eq {A} n (l : list A) : n <= length l -> length (firstn n l) = n.
Proof. intros. rewrite firstn_length. lia. Qed.

Lemma rel_values norm names : forall l l' O Sv N, rel norm l l' O Sv N -> List.Forall (good1 norm names) l -> length Sv = length names ->
  total_count mO l <= length O -> total_count (mN norm) l <= length N ->
  concat (map (fun cn => pick (mO cn) (vs cn)) l') = firstn (total_count mO l) O /\
  concat (map (fun cn => pick (mN norm cn) (vs cn)) l') = firstn (total_count (mN norm) l) N /\
  List.Forall (fun cn => pick (mS norm cn) (vs cn) = Sv) l' /\ List.Forall (good1 norm names) l' /\
  total_count mO l' = total_count mO l /\ total_count (mN norm) l' = total_count (mN norm) l /\ length l' = length l.
Proof.
  induction l as [|cn l IH]; intros [|cn' l'] O Sv N H HG HS HO HN; simpl in *; try tauto. { repeat split; constructor. }
  inversion HG as [|? ? G1 GR]; subst. destruct H as [(s' & E0 & B & C) H]. rewrite !total_cons in *.
  destruct (rel_masks norm cn s' B) as (E1 & E2 & E3). cbv zeta in *. pose proof (good_tags norm names cn s' B G1) as G1'. rewrite <- E0 in *.
  assert (E4 : vs cn' = fill (mN norm cn) (fill (mS norm cn) (fill (mO cn) (vs cn) (firstn (count (mO cn)) O)) Sv) (firstn (count (mN norm cn)) N)) by (rewrite E0; exact C).
  destruct (picks norm cn (firstn (count (mO cn)) O) Sv (firstn (count (mN norm cn)) N)) as (P1 & P2 & P3).
  { apply firstn_app_eq. lia. } { rewrite (good_counts _ _ _ G1). auto. } { apply firstn_app_eq. lia. }
  destruct (IH l' _ _ _ H GR HS) as (I1 & I2 & I3 & I4 & I5 & I6 & I7). { rewrite skipn_length. lia. } { rewrite skipn_length. lia. }
  cbv zeta in *. rewrite <- E4 in *. rewrite E1, E3, P1, P3, I1, I2, I5, I6, I7, !firstn_add. repeat split; auto.
  constructor; auto. now rewrite E2.
Qed.

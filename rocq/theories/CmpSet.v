From Coq Require Import Reals String Lra.
From Verif Require Import Base DerivSpec UnbinGrad CmpModel CmpSpec CmpProofs.
Local Open Scope string_scope.
Local Open Scope list_scope.

Notation sources := (list (string * spectrum)).

(** names and free flags: what setting values does not change *)
Definition ptags (l : list par) : list (string * bool) := map (fun p => (p_name p, p_free p)) l.
Definition stag (s : string * spectrum) := (fst s, ptags (sp_pars (snd s)), sp_norm (snd s), sp_kind (snd s)).
Definition vals_of (l : sources) : list R := map p_val (all_pars l).

(** marks by source name, parameter name and free flag *)
Definition smask (T : string -> string -> bool -> bool) (s : string * spectrum) : list bool :=
  map (fun p => T (fst s) (p_name p) (p_free p)) (sp_pars (snd s)).
Definition mask (T : string -> string -> bool -> bool) (l : sources) : list bool := concat (map (smask T) l).

Definition TO (name : string) := fun sn (_ : string) f => (f && negb (String.eqb sn name))%bool.
Definition TS (name norm : string) := fun sn pn f => (f && String.eqb sn name && negb (String.eqb pn norm))%bool.
Definition TN (name norm : string) := fun sn pn f => (f && String.eqb sn name && String.eqb pn norm)%bool.

Lemma mask_length T l : length (mask T l) = length (vals_of l).
Proof.
  unfold mask, vals_of, all_pars. rewrite map_length. induction l as [|s l IH]; simpl; auto.
  rewrite !app_length, IH. unfold smask. now rewrite map_length.
Qed.

Lemma mask_tags T : forall l l', map stag l = map stag l' -> mask T l = mask T l'.
Proof.
  unfold mask. induction l as [|s l IH]; intros [|s' l'] H; simpl in *; try discriminate; auto.
  injection H as E1 E2 E3 E4 E5. f_equal; [|auto]. unfold smask. rewrite E1.
  clear -E2. revert E2. generalize (sp_pars (snd s)) (sp_pars (snd s')). induction l as [|p l IH]; intros [|q l'] H; simpl in *; try discriminate; auto.
  injection H as A B C. rewrite A, B. f_equal. auto.
Qed.

Lemma mask_dis T U l : (forall a b c, (T a b c && U a b c)%bool = false) -> disjoint (mask T l) (mask U l).
Proof.
  intros H. unfold mask. assert (A : forall m n m' n', disjoint m n -> length m = length n -> disjoint m' n' -> disjoint (m ++ m') (n ++ n')).
  { induction m as [|x m IH]; intros [|y n] m' n' D E D'; simpl in *; try discriminate; auto. destruct D. auto. }
  induction l as [|s l IH]; simpl; auto. apply A; auto.
  - unfold smask. induction (sp_pars (snd s)); simpl; auto.
  - unfold smask. now rewrite !map_length.
Qed.

Lemma dis_OS n m a b c : (TO n a b c && TS n m a b c)%bool = false.
Proof. unfold TO, TS. destruct c, (a =? n), (b =? m); auto. Qed.
Lemma dis_ON n m a b c : (TO n a b c && TN n m a b c)%bool = false.
Proof. unfold TO, TN. destruct c, (a =? n), (b =? m); auto. Qed.
Lemma dis_SN n m a b c : (TS n m a b c && TN n m a b c)%bool = false.
Proof. unfold TN, TS. destruct c, (a =? n), (b =? m); auto. Qed.

Lemma dis_comm : forall a b, disjoint a b -> disjoint b a.
Proof. induction a as [|x a IH]; intros [|y b] H; simpl in *; auto. destruct H as [E H]. rewrite andb_comm in E. auto. Qed.

Lemma firstn_add {A} (l : list A) a b : firstn (a + b) l = firstn a l ++ firstn b (skipn a l).
Proof. revert l. induction a as [|a IH]; intros [|x l]; simpl; auto. now rewrite !firstn_nil. now rewrite IH. Qed.

Lemma skipn_skip {A} (l : list A) a b : skipn b (skipn a l) = skipn (a + b) l.
Proof. revert l. induction a as [|a IH]; intros [|x l]; simpl; auto. apply skipn_nil. Qed.

(** ** one component: the sources that are not common *)
Lemma set_free_ok : forall l vals, count (map p_free l) <= length vals ->
  exists l', set_free l vals = Ok (l', skipn (count (map p_free l)) vals) /\ ptags l' = ptags l /\
    map p_val l' = fill (map p_free l) (map p_val l) (firstn (count (map p_free l)) vals).
Proof.
  induction l as [|p l IH]; intros vals H; simpl.
  - exists []. auto.
  - unfold count in *; simpl in *; destruct (p_free p) eqn:E; simpl in *.
    + destruct vals as [|v vals]; simpl in *; [lia|]. destruct (IH vals ltac:(lia)) as (l' & A & B & C). rewrite A. simpl.
      exists (mk_par (p_name p) v true :: l'). unfold ptags in *. simpl. rewrite B, C. auto.
    + destruct (IH vals H) as (l' & A & B & C). rewrite A. simpl. exists (p :: l'). unfold ptags in *. simpl. rewrite B, C, E. auto.
Qed.

Lemma smask_no name n s : n <> name -> smask (TO name) (n, s) = map p_free (sp_pars s).
Proof. intros H. unfold smask, TO. simpl. apply map_ext. intros p. apply String.eqb_neq in H. rewrite H. now rewrite andb_true_r. Qed.
Lemma smask_yes name s : count (smask (TO name) (name, s)) = 0.
Proof. unfold smask, TO, count. simpl. rewrite String.eqb_refl. induction (sp_pars s) as [|p l IH]; simpl; auto. now rewrite andb_false_r. Qed.

Lemma set_others_ok name : forall l vals, count (mask (TO name) l) <= length vals ->
  exists l', set_others name l vals = Ok (l', skipn (count (mask (TO name) l)) vals) /\ map stag l' = map stag l /\
    vals_of l' = fill (mask (TO name) l) (vals_of l) (firstn (count (mask (TO name) l)) vals) /\
    find_src name l' = find_src name l.
Proof.
  induction l as [|[n s] l IH]; intros vals H.
  - exists []. simpl. unfold vals_of, all_pars. simpl. auto.
  - unfold mask in *. cbn [map concat] in *. rewrite count_app in *. cbn [set_others].
    destruct (String.eqb n name) eqn:E.
    + apply String.eqb_eq in E. subst n. rewrite smask_yes in *. simpl in H. destruct (IH vals H) as (l' & A & B & C & D).
      rewrite A. cbn [obind fst snd]. exists ((name, s) :: l'). rewrite Nat.add_0_l. simpl. rewrite String.eqb_refl. repeat split; auto.
      * now rewrite B.
      * unfold vals_of, all_pars in *. simpl. rewrite !map_app, C.
        change (firstn _ vals) with ([] ++ firstn (count (concat (map (smask (TO name)) l))) vals).
        rewrite fill_app; [now rewrite fill_nil| |rewrite smask_yes; auto]. unfold smask. now rewrite !map_length.
    + pose proof E as E'. apply String.eqb_neq in E'. rewrite (smask_no name n s E') in *.
      destruct (set_free_ok (sp_pars s) vals ltac:(lia)) as (ps & A & B & C). rewrite A. cbn [obind fst snd].
      destruct (IH (skipn (count (map p_free (sp_pars s))) vals)) as (l' & A' & B' & C' & D'). { rewrite skipn_length. lia. }
      rewrite A'. cbn [obind fst snd]. rewrite skipn_skip. eexists. split; [reflexivity|]. simpl. rewrite E, B'. unfold stag. simpl. rewrite B. repeat split; auto.
      unfold vals_of, all_pars in *. simpl. rewrite !map_app, C', C, firstn_add, fill_app; auto.
      * now rewrite !map_length.
      * rewrite firstn_length. lia.
Qed.

(** ** one component: the common source *)
Fixpoint set_shape_p (nv : list (string * R)) (l : list par) : outcome (list par) :=
  match nv with
  | [] => Ok l
  | (n, v) :: r => obind (set_param n v l) (set_shape_p r)
  end.

Lemma set_shape_eq : forall nv s, set_shape nv s = obind (set_shape_p nv (sp_pars s)) (fun l => Ok (mk_spec l (sp_norm s) (sp_kind s))).
Proof.
  induction nv as [|[n v] nv IH]; intros s; simpl.
  - now destruct s.
  - unfold set_sp. destruct (set_param n v (sp_pars s)); simpl; auto. rewrite IH. reflexivity.
Qed.

Lemma set_shape_skip : forall nv p l, ~ In (p_name p) (map fst nv) ->
  set_shape_p nv (p :: l) = obind (set_shape_p nv l) (fun r => Ok (p :: r)).
Proof.
  induction nv as [|[n v] nv IH]; intros p l H; simpl in *; auto.
  destruct (String.eqb (p_name p) n) eqn:E. { apply String.eqb_eq in E. exfalso. apply H. auto. }
  destruct (set_param n v l); simpl; auto. 
Qed.

Definition shapeT (norm : string) (p : par) : bool := (p_free p && negb (String.eqb (p_name p) norm))%bool.

Lemma combine_fst' {A B} : forall (l : list A) (r : list B), length l = length r -> map fst (combine l r) = l.
Proof. induction l as [|a l IH]; intros [|b r] H; simpl in *; try discriminate; auto. f_equal. auto. Qed.

Lemma in_shape_names norm l x : In x (map p_name (filter (shapeT norm) l)) -> In x (map p_name l).
Proof. rewrite !in_map_iff. intros (p & A & B). apply filter_In in B. exists p. tauto. Qed.

Lemma set_shape_ok norm : forall l sv, NoDup (map p_name l) -> length sv = length (filter (shapeT norm) l) ->
  exists l', set_shape_p (combine (map p_name (filter (shapeT norm) l)) sv) l = Ok l' /\ ptags l' = ptags l /\
    map p_val l' = fill (map (shapeT norm) l) (map p_val l) sv.
Proof.
  induction l as [|p l IH]; intros sv ND HL; simpl in *.
  - exists []. simpl. auto.
  - inversion ND as [|? ? NI ND']; subst. destruct (shapeT norm p) eqn:E; simpl in *.
    + destruct sv as [|v sv]; simpl in *; [discriminate|]. rewrite String.eqb_refl. cbn [obind].
      destruct (IH sv ND' ltac:(lia)) as (l' & A & B & C).
      rewrite set_shape_skip; [rewrite A|]; cbn [obind].
      * eexists; split; [reflexivity|]. unfold ptags in *; simpl. rewrite B, C. auto.
      * simpl. rewrite combine_fst' by (rewrite map_length; lia). intros X. apply NI. eapply in_shape_names; eauto.
    + destruct (IH sv ND' HL) as (l' & A & B & C). rewrite set_shape_skip; [rewrite A|]; cbn [obind].
      * eexists; split; [reflexivity|]. unfold ptags in *; simpl. rewrite B, C. auto.
      * rewrite combine_fst' by (rewrite map_length; lia). intros X. apply NI. eapply in_shape_names; eauto.
Qed.

Definition normT (norm : string) (p : par) : bool := (p_free p && String.eqb (p_name p) norm)%bool.

Lemma normT_none norm : forall l, ~ In norm (map p_name l) -> count (map (normT norm) l) = 0.
Proof.
  unfold count. induction l as [|p l IH]; simpl; intros H; auto. unfold normT at 1. destruct (String.eqb (p_name p) norm) eqn:E.
  - apply String.eqb_eq in E. tauto.
  - rewrite andb_false_r. apply IH. tauto.
Qed.

Lemma norm_par_find norm s : NoDup (map p_name (sp_pars s)) -> sp_norm s = norm -> In norm (map p_name (sp_pars s)) ->
  exists p, norm_par s = Ok p /\ In p (sp_pars s) /\ p_name p = norm /\ count (map (normT norm) (sp_pars s)) = (if p_free p then 1 else 0) /\
    pick (map (normT norm) (sp_pars s)) (sp_pars s) = (if p_free p then [p] else []).
Proof.
  unfold norm_par. intros ND -> HI. revert ND HI. generalize (sp_pars s). induction l as [|p l IH]; simpl; intros ND HI; [tauto|].
  inversion ND as [|? ? NI ND']; subst. destruct (String.eqb (p_name p) norm) eqn:E.
  - apply String.eqb_eq in E. exists p. repeat split; auto.
    + unfold count. simpl. unfold normT at 1. rewrite E, String.eqb_refl, andb_true_r. rewrite E in NI. pose proof (normT_none _ _ NI) as Z. unfold count in Z.
      destruct (p_free p); simpl; auto.
    + unfold normT at 1. rewrite E, String.eqb_refl, andb_true_r. assert (Z : pick (map (normT norm) l) l = []).
      { rewrite E in NI. pose proof (pick_length (map (normT norm) l) l ltac:(now rewrite map_length)) as PL. rewrite normT_none in PL by auto. now destruct (pick _ _). }
      rewrite Z. destruct (p_free p); auto.
  - destruct HI as [HI|HI]. { rewrite HI, String.eqb_refl in E. discriminate. }
    destruct (IH ND' HI) as (q & A & B & C & D & F). exists q. rewrite A. repeat split; auto.
    + unfold count in *. simpl. unfold normT at 1. now rewrite E, andb_false_r.
    + unfold normT at 1. now rewrite E, andb_false_r.
Qed.

Lemma set_norm_ok norm v : forall l p, NoDup (map p_name l) -> In p l -> p_name p = norm -> p_free p = true ->
  exists l', set_param norm v l = Ok l' /\ ptags l' = ptags l /\ map p_val l' = fill (map (normT norm) l) (map p_val l) [v].
Proof.
  induction l as [|q l IH]; simpl; intros p ND HI HN HF; [tauto|]. inversion ND as [|? ? NI ND']; subst.
  destruct (String.eqb (p_name q) (p_name p)) eqn:E.
  - apply String.eqb_eq in E. assert (q = p). { destruct HI as [HI|HI]; auto. exfalso. apply NI. rewrite E. now apply in_map. } subst q.
    eexists; split; [reflexivity|]. unfold ptags; simpl. split; auto. unfold normT at 1. rewrite HF, String.eqb_refl. simpl. now rewrite fill_nil.
  - destruct HI as [HI|HI]. { subst. rewrite String.eqb_refl in E. discriminate. }
    destruct (IH p ND' HI eq_refl HF) as (l' & A & B & C). rewrite A. cbn [obind]. eexists; split; [reflexivity|]. unfold ptags in *; simpl. rewrite B, C.
    split; auto. unfold normT at 2. now rewrite E, andb_false_r.
Qed.

Lemma put_fill name T (t : par -> bool) s s' x : (forall p, T name (p_name p) (p_free p) = t p) -> (forall n a b, n <> name -> T n a b = false) ->
  ptags (sp_pars s') = ptags (sp_pars s) -> sp_norm s' = sp_norm s -> sp_kind s' = sp_kind s ->
  map p_val (sp_pars s') = fill (map t (sp_pars s)) (map p_val (sp_pars s)) x ->
  count (map t (sp_pars s)) = length x ->
  forall l, NoDup (map fst l) -> find_src name l = Some s ->
    vals_of (put_src name s' l) = fill (mask T l) (vals_of l) x /\ map stag (put_src name s' l) = map stag l /\ find_src name (put_src name s' l) = Some s' /\
    count (mask T l) = length x.
Proof.
  intros Tt Tn Htag Hnorm Hkind Hv Hc.
  assert (Z : forall l, ~ In name (map fst l) -> count (mask T l) = 0).
  { unfold mask. induction l as [|[n r] l IH]; intros NI; simpl in *; auto. rewrite count_app, IH by tauto. unfold smask, count. simpl. rewrite Nat.add_0_r.
    induction (sp_pars r); simpl; auto. now rewrite Tn by tauto. }
  induction l as [|[n r] l IH]; intros ND HF; simpl in *; [discriminate|]. inversion ND as [|? ? NI ND']; subst.
  destruct (String.eqb n name) eqn:E.
  - apply String.eqb_eq in E. subst n. injection HF as ->. simpl. rewrite String.eqb_refl. unfold vals_of, all_pars. simpl. rewrite !map_app, Hv.
    unfold mask. simpl. fold (mask T l). assert (SM : smask T (name, s) = map t (sp_pars s)). { unfold smask. simpl. apply map_ext. auto. } rewrite SM.
    repeat split.
    + replace x with (x ++ []) at 2 by apply app_nil_r. rewrite fill_app; auto. 2: now rewrite !map_length. now rewrite fill_nil.
    + unfold stag at 1 3. simpl. now rewrite Htag, Hnorm, Hkind.
    + rewrite count_app, Z by auto. lia.
  - pose proof E as E'. apply String.eqb_neq in E'. destruct (IH ND' HF) as (A & B & C & D). simpl. rewrite E. unfold vals_of, all_pars in *. simpl. rewrite !map_app, A.
    assert (SZ : count (smask T (n, r)) = 0). { unfold smask, count. simpl. induction (sp_pars r); simpl; auto. now rewrite Tn. }
    unfold mask in *. simpl. repeat split; auto.
    + change x with ([] ++ x) at 2. rewrite fill_app; auto. 2: unfold smask; now rewrite !map_length. now rewrite fill_nil.
    + now rewrite B.
    + rewrite count_app, SZ. auto.
Qed.

From Coq Require Import Reals String Lra.
From Verif Require Import Base DerivSpec UnbinGrad CmpModel CmpSpec CmpProofs CmpSet CmpMain.
Local Open Scope string_scope.
Local Open Scope list_scope.

Lemma fill_comm : forall m n v x y, disjoint m n -> length m = length v -> length n = length v -> fill m (fill n v x) y = fill n (fill m v y) x.
Proof.
  induction m as [|a m IH]; intros [|b n] [|w v] x y HD HL HN; simpl in *; try discriminate; auto. destruct HD as [Hab HD].
  destruct a, b; simpl in *; try discriminate; destruct x as [|x0 x], y as [|y0 y]; rewrite ?fill_nil; simpl; rewrite ?fill_nil; auto; f_equal; rewrite ?IH; auto.
Qed.

Lemma fill_again : forall m v x y, length x = length y -> fill m (fill m v x) y = fill m v y.
Proof.
  induction m as [|[] m IH]; intros [|w v] [|x0 x] [|y0 y] HL; simpl in *; try discriminate; auto; f_equal; try apply IH; try rewrite !fill_nil; auto.
Qed.

(** the joint value as a function of the three groups of values *)
Fixpoint total (norm : string) (l : list (comp * string)) (O Sv N : list R) : R :=
  match l with
  | [] => 0%R
  | cn :: r =>
      (c_fun (fst cn) (fill (mN norm cn) (fill (mS norm cn) (fill (mO cn) (vs cn) (firstn (count (mO cn)) O)) Sv) (firstn (count (mN norm cn)) N))
       + total norm r (skipn (count (mO cn)) O) Sv (skipn (count (mN norm cn)) N))%R
  end.

Lemma value_total norm : forall l l' O Sv N acc, rel norm l l' O Sv N -> snd (value_loop l' acc) = (acc + total norm l O Sv N)%R.
Proof.
  induction l as [|cn l IH]; intros [|[c' n'] l'] O Sv N acc H; simpl in *; try tauto; try lra.
  destruct H as [(s' & E & B & C) H]. injection E as -> ->. simpl. destruct (value_loop l' _) eqn:EV. simpl.
  change r with (snd (l0, r)). rewrite <- EV, (IH l' _ _ _ _ H). unfold all_vals. simpl. fold (vals_of s'). rewrite C. lra.
Qed.

Lemma total_app_l norm : forall l O O' Sv N, length O = total_count mO l -> total norm l (O ++ O') Sv N = total norm l O Sv N.
Proof.
  induction l as [|cn l IH]; intros O O' Sv N HL; simpl; auto. rewrite total_cons in HL. rewrite firstn_app, skipn_app.
  replace (count (mO cn) - length O) with 0 by lia. simpl. rewrite app_nil_r, IH; auto. rewrite skipn_length. lia.
Qed.

Definition grad (cn : comp * string) : list R := c_grad (fst cn) (vs cn) (vs cn).

Definition hon (cn : comp * string) : Prop := G (c_fun (fst cn)) (vs cn) (grad cn).

Section Point.
Variables (norm : string) (names : list string) (cn cn' : comp * string) (s' : sources) (o Sv n : list R).
Hypothesis E0 : cn' = (with_srcs (fst cn) s', snd cn).
Hypothesis B : map stag s' = map stag (c_srcs (fst cn)).
Hypothesis C : vals_of s' = fill (mN norm cn) (fill (mS norm cn) (fill (mO cn) (vs cn) o) Sv) n.
Hypothesis Lo : length o = count (mO cn).
Hypothesis Ls : length Sv = count (mS norm cn).
Hypothesis Ln : length n = count (mN norm cn).
Hypothesis HH : hon cn'.

Let V (a b c : list R) : R := c_fun (fst cn) (fill (mN norm cn) (fill (mS norm cn) (fill (mO cn) (vs cn) a) b) c).

Lemma pt_facts : mO cn' = mO cn /\ mS norm cn' = mS norm cn /\ mN norm cn' = mN norm cn /\ vs cn' = fill (mN norm cn) (fill (mS norm cn) (fill (mO cn) (vs cn) o) Sv) n /\ c_fun (fst cn') = c_fun (fst cn).
Proof. subst cn'. destruct (rel_masks norm cn s' B) as (A1 & A2 & A3). repeat split; auto. Qed.

Lemma lens : length (mO cn) = length (vs cn) /\ length (mS norm cn) = length (vs cn) /\ length (mN norm cn) = length (vs cn).
Proof. repeat split; apply mask_length. Qed.

Lemma G_o : G (fun a => V a Sv n) o (pick (mO cn') (grad cn')).
Proof.
  destruct pt_facts as (F1 & F2 & F3 & F4 & F5), lens as (L1 & L2 & L3). destruct (picks norm cn o Sv n Lo Ls Ln) as (P1 & P2 & P3). cbv zeta in *. rewrite <- F4 in *.
  pose proof (G_fill (mO cn) (vs cn') (grad cn') (c_fun (fst cn'))) as HG. rewrite P1 in HG. rewrite F1. eapply G_ext; [|apply HG; [|exact HH]].
  - intros l Hl. simpl. unfold V. rewrite F4, F5. f_equal.
    rewrite (fill_comm (mO cn) (mN norm cn)); rewrite ?fill_length; auto; [|apply mask_dis; intros; apply dis_ON]. f_equal.
    rewrite (fill_comm (mO cn) (mS norm cn)); rewrite ?fill_length; auto; [|apply mask_dis; intros; apply dis_OS]. f_equal. apply fill_again. auto.
  - rewrite F4, !fill_length. auto.
Qed.

Lemma G_s : G (fun b => V o b n) Sv (pick (mS norm cn') (grad cn')).
Proof.
  destruct pt_facts as (F1 & F2 & F3 & F4 & F5), lens as (L1 & L2 & L3). destruct (picks norm cn o Sv n Lo Ls Ln) as (P1 & P2 & P3). cbv zeta in *. rewrite <- F4 in *.
  pose proof (G_fill (mS norm cn) (vs cn') (grad cn') (c_fun (fst cn'))) as HG. rewrite P2 in HG. rewrite F2. eapply G_ext; [|apply HG; [|exact HH]].
  - intros l Hl. simpl. unfold V. rewrite F4, F5. f_equal.
    rewrite (fill_comm (mS norm cn) (mN norm cn)); rewrite ?fill_length; auto; [|apply mask_dis; intros; apply dis_SN]. f_equal. apply fill_again. auto.
  - rewrite F4, !fill_length. auto.
Qed.

Lemma G_n : G (fun c => V o Sv c) n (pick (mN norm cn') (grad cn')).
Proof.
  destruct pt_facts as (F1 & F2 & F3 & F4 & F5), lens as (L1 & L2 & L3). destruct (picks norm cn o Sv n Lo Ls Ln) as (P1 & P2 & P3). cbv zeta in *. rewrite <- F4 in *.
  pose proof (G_fill (mN norm cn) (vs cn') (grad cn') (c_fun (fst cn'))) as HG. rewrite P3 in HG. rewrite F3. eapply G_ext; [|apply HG; [|exact HH]].
  - intros l Hl. simpl. unfold V. rewrite F4, F5. f_equal. apply fill_again. auto.
  - rewrite F4, !fill_length. auto.
Qed.
End Point.

Definition vplus (a b : list R) : list R := map (fun p => fst p + snd p)%R (combine a b).

Lemma total_O norm names : forall l l' O Sv N, rel norm l l' O Sv N -> List.Forall (good1 norm names) l -> length Sv = length names ->
  length O = total_count mO l -> total_count (mN norm) l <= length N -> List.Forall hon l' ->
  G (fun O => total norm l O Sv N) O (concat (map (fun cn => pick (mO cn) (grad cn)) l')).
Proof.
  induction l as [|cn l IH]; intros [|cn' l'] O Sv N H HG HS HO HN HH; simpl in H; try tauto.
  - unfold total_count in HO. simpl in *. destruct O; [exact I|discriminate].
  - inversion HG as [|? ? G1 GR]; subst. inversion HH as [|? ? H1 HR]; subst. destruct H as [(s' & E0 & B & C) H]. rewrite total_cons in *.
    assert (Lo : length (firstn (count (mO cn)) O) = count (mO cn)) by (apply firstn_app_eq; lia).
    rewrite <- (firstn_skipn (count (mO cn)) O) at 1. cbn [map concat].
    pose proof (G_split (firstn (count (mO cn)) O) (skipn (count (mO cn)) O) (pick (mO cn') (grad cn')) (concat (map (fun cn => pick (mO cn) (grad cn)) l'))
      (fun x y => c_fun (fst cn) (fill (mN norm cn) (fill (mS norm cn) (fill (mO cn) (vs cn) x) Sv) (firstn (count (mN norm cn)) N)) + total norm l y Sv (skipn (count (mN norm cn)) N))%R) as GS.
    rewrite Lo in GS. apply GS.
    + apply G_add_const. eapply (G_o norm cn cn' s' (firstn (count (mO cn)) O) Sv (firstn (count (mN norm cn)) N)); auto.
      * rewrite (good_counts _ _ _ G1). auto.
      * apply firstn_app_eq. lia.
    + eapply G_ext; [|apply G_add_const; eapply (IH l' (skipn (count (mO cn)) O) Sv (skipn (count (mN norm cn)) N)); auto].
      * intros z Hz. simpl. rewrite Rplus_comm. reflexivity.
      * rewrite skipn_length. lia.
      * rewrite skipn_length. lia.
Qed.

Lemma total_N norm names : forall l l' O Sv N, rel norm l l' O Sv N -> List.Forall (good1 norm names) l -> length Sv = length names ->
  total_count mO l <= length O -> length N = total_count (mN norm) l -> List.Forall hon l' ->
  G (fun N => total norm l O Sv N) N (concat (map (fun cn => pick (mN norm cn) (grad cn)) l')).
Proof.
  induction l as [|cn l IH]; intros [|cn' l'] O Sv N H HG HS HO HN HH; simpl in H; try tauto.
  - unfold total_count in HN. simpl in *. destruct N; [exact I|discriminate].
  - inversion HG as [|? ? G1 GR]; subst. inversion HH as [|? ? H1 HR]; subst. destruct H as [(s' & E0 & B & C) H]. rewrite total_cons in *.
    assert (Lo : length (firstn (count (mN norm cn)) N) = count (mN norm cn)) by (apply firstn_app_eq; lia).
    rewrite <- (firstn_skipn (count (mN norm cn)) N) at 1. cbn [map concat].
    pose proof (G_split (firstn (count (mN norm cn)) N) (skipn (count (mN norm cn)) N) (pick (mN norm cn') (grad cn')) (concat (map (fun cn => pick (mN norm cn) (grad cn)) l'))
      (fun x y => c_fun (fst cn) (fill (mN norm cn) (fill (mS norm cn) (fill (mO cn) (vs cn) (firstn (count (mO cn)) O)) Sv) x) + total norm l (skipn (count (mO cn)) O) Sv y)%R) as GS.
    rewrite Lo in GS. apply GS.
    + apply G_add_const. eapply (G_n norm cn cn' s' (firstn (count (mO cn)) O) Sv (firstn (count (mN norm cn)) N)); auto.
      * apply firstn_app_eq. lia.
      * rewrite (good_counts _ _ _ G1). auto.
    + eapply G_ext; [|apply G_add_const; eapply (IH l' (skipn (count (mO cn)) O) Sv (skipn (count (mN norm cn)) N)); auto].
      * intros z Hz. simpl. rewrite Rplus_comm. reflexivity.
      * rewrite skipn_length. lia.
      * rewrite skipn_length. lia.
Qed.

Lemma total_S norm names : forall l l' O Sv N, rel norm l l' O Sv N -> List.Forall (good1 norm names) l -> length Sv = length names ->
  total_count mO l <= length O -> total_count (mN norm) l <= length N -> List.Forall hon l' ->
  forall K acc, G K Sv acc ->
  G (fun b => K b + total norm l O b N)%R Sv (fold_left (fun a cn => vplus a (pick (mS norm cn) (grad cn))) l' acc).
Proof.
  induction l as [|cn l IH]; intros [|cn' l'] O Sv N H HG HS HO HN HH K acc HK; simpl in H; try tauto.
  - simpl. now apply G_add_const.
  - inversion HG as [|? ? G1 GR]; subst. inversion HH as [|? ? H1 HR]; subst. destruct H as [(s' & E0 & B & C) H]. rewrite total_cons in *.
    cbn [fold_left]. eapply G_ext; [|eapply (IH l' (skipn (count (mO cn)) O) Sv (skipn (count (mN norm cn)) N)); auto].
    + intros z Hz. simpl. symmetry. rewrite <- Rplus_assoc. reflexivity.
    + rewrite skipn_length. lia.
    + rewrite skipn_length. lia.
    + apply G_plus; auto. eapply (G_s norm cn cn' s' (firstn (count (mO cn)) O) Sv (firstn (count (mN norm cn)) N)); auto.
      * apply firstn_app_eq. lia.
      * rewrite (good_counts _ _ _ G1). auto.
      * apply firstn_app_eq. lia.
Qed.

(** ** the derivatives the composite collects *)
Definition ft (cn : comp * string) : list (string * par) :=
  concat (map (fun s => map (fun p => (fst s, p)) (sp_pars (snd s))) (c_srcs (fst cn))).

Lemma ft_mask T cn : mask T (c_srcs (fst cn)) = map (fun x => T (fst x) (p_name (snd x)) (p_free (snd x))) (ft cn).
Proof. unfold mask, ft. induction (c_srcs (fst cn)) as [|s l IH]; simpl; auto. rewrite map_app, IH. f_equal. unfold smask. rewrite map_map. reflexivity. Qed.
Lemma ft_pars cn : all_pars (c_srcs (fst cn)) = map snd (ft cn).
Proof. unfold all_pars, ft. induction (c_srcs (fst cn)) as [|s l IH]; simpl; auto. rewrite map_app, IH. f_equal. rewrite map_map. simpl. now rewrite map_id. Qed.
Lemma ft_flags cn : flags cn = map (fun x => (String.eqb (fst x) (snd cn), p_name (snd x))) (filter (fun x => p_free (snd x)) (ft cn)).
Proof.
  unfold flags, ft. induction (c_srcs (fst cn)) as [|s l IH]; simpl; auto. rewrite filter_app, map_app, IH. f_equal. unfold free_pars.
  induction (sp_pars (snd s)) as [|p q IHq]; simpl; auto. destruct (p_free p); simpl; [f_equal|]; auto.
Qed.

Fixpoint addfrom (Sh : list R) (q : nat) (ds : list R) : list R :=
  match ds with [] => Sh | d :: r => addfrom (upd Sh q (nth q Sh 0 + d)%R) (S q) r end.

Lemma upd_mid {A} (a : list A) x b y : upd (a ++ x :: b) (length a) y = a ++ y :: b.
Proof. induction a as [|z a IH]; simpl; auto. now rewrite IH. Qed.
Lemma nth_mid {A} (a : list A) x b d : nth (length a) (a ++ x :: b) d = x.
Proof. induction a as [|z a IH]; simpl; auto. Qed.

Lemma addfrom_all : forall ds a b, length ds = length b -> addfrom (a ++ b) (length a) ds = a ++ vplus b ds.
Proof.
  induction ds as [|d ds IH]; intros a [|x b] HL; simpl in *; try discriminate; auto.
  rewrite upd_mid, nth_mid. specialize (IH (a ++ [(x + d)%R]) b ltac:(lia)). rewrite app_length in IH. simpl in IH. rewrite Nat.add_1_r in IH. rewrite <- !app_assoc in IH. simpl in IH. exact IH.
Qed.

Lemma addfrom_length : forall ds Sh q, length (addfrom Sh q ds) = length Sh.
Proof. induction ds as [|d ds IH]; intros; simpl; auto. rewrite IH. apply upd_length. Qed.

Section Fold.
Variables (norm name : string) (npars : nat).
Let oT (x : string * par) := TO name (fst x) (p_name (snd x)) (p_free (snd x)).
Let sT (x : string * par) := TS name norm (fst x) (p_name (snd x)) (p_free (snd x)).
Let nT (x : string * par) := TN name norm (fst x) (p_name (snd x)) (p_free (snd x)).

Lemma fold_one : forall l g D Sh N base q, length g = length l -> length Sh = npars -> q + count (map sT l) <= npars ->
  mfold (deriv_step norm npars)
    (combine (map (fun x => (String.eqb (fst x) name, p_name (snd x))) (filter (fun x => p_free (snd x)) l))
             (map snd (filter (fun pd => p_free (fst pd)) (combine (map snd l) g)))) (D, Sh, N, base * npars + q)
  = Ok (D ++ pick (map oT l) g, addfrom Sh q (pick (map sT l) g), N ++ pick (map nT l) g, base * npars + (q + count (map sT l))).
Proof.
  induction l as [|[sn p] l IH]; intros [|d g] D Sh N base q HL HS HQ; simpl in HL; try discriminate.
  - simpl. unfold count. simpl. now rewrite !app_nil_r, Nat.add_0_r.
  - assert (HO : oT (sn, p) = (p_free p && negb (sn =? name))%bool) by reflexivity.
    assert (HSs : sT (sn, p) = (p_free p && (sn =? name) && negb (p_name p =? norm))%bool) by reflexivity.
    assert (HNn : nT (sn, p) = (p_free p && (sn =? name) && (p_name p =? norm))%bool) by reflexivity.
    cbn [map combine filter fst snd] in *. rewrite HO, HNn. rewrite HSs in *. unfold count in *. cbn [filter] in *.
    destruct (p_free p) eqn:EF; cbn [filter combine map mfold andb fst snd pick] in *.
    2: { rewrite (IH g); auto. }
    unfold deriv_step at 1. destruct (sn =? name) eqn:ES; cbn [negb andb] in *.
    + destruct (p_name p =? norm) eqn:EN; cbn [negb andb obind pick filter] in *.
      * rewrite (IH g); auto. now rewrite <- app_assoc.
      * cbn [length] in HQ. replace (Nat.eqb npars 0) with false by (symmetry; apply Nat.eqb_neq; lia).
        replace ((base * npars + q) mod npars) with q. 2: { rewrite Nat.add_comm, Nat.mod_add by lia. symmetry. apply Nat.mod_small. lia. }
        unfold vec_at. rewrite (nth_error_nth' Sh 0%R) by lia. cbn [obind]. unfold vec_set. replace (Nat.ltb q (length Sh)) with true by (symmetry; apply Nat.ltb_lt; lia). cbn [obind].
        replace (S (base * npars + q)) with (base * npars + S q) by lia. rewrite (IH g); auto; try (rewrite upd_length; auto); try lia.
        cbn [addfrom length]. rewrite Nat.add_succ_r. reflexivity.
    + cbn [obind filter]. rewrite (IH g); auto. now rewrite <- app_assoc.
Qed.
End Fold.

Lemma comp_derivs_now cn : (c_cached (fst cn) = true -> c_at (fst cn) = None \/ c_at (fst cn) = Some (vs cn)) ->
  snd (comp_derivs (fst cn)) = map snd (filter (fun pd => p_free (fst pd)) (combine (all_pars (c_srcs (fst cn))) (grad cn))).
Proof.
  intros H. unfold comp_derivs, grad, vs, all_vals, vals_of in *. simpl. destruct (c_cached (fst cn)); auto. destruct (H eq_refl) as [-> | ->]; auto.
Qed.

Lemma flags_len cn : length (grad cn) = length (vs cn) ->
  length (flags cn) = length (map snd (filter (fun pd => p_free (fst pd)) (combine (all_pars (c_srcs (fst cn))) (grad cn)))).
Proof.
  intros H. rewrite ft_flags, ft_pars, !map_length. assert (L : length (grad cn) = length (ft cn)). { rewrite H. unfold vs, vals_of. rewrite ft_pars, !map_length. auto. }
  revert L. generalize (grad cn) (ft cn). clear H. intros g l. revert g. induction l as [|x l IH]; intros [|d g] L; simpl in *; try discriminate; auto.
  destruct (p_free (snd x)); simpl; auto.
Qed.

Lemma mfold_app2 {A S} (f : S -> A -> outcome S) l1 l2 s : mfold f (l1 ++ l2) s = obind (mfold f l1 s) (mfold f l2).
Proof. revert s. induction l1 as [|a l1 IH]; intros s; simpl; auto. destruct (f s a); simpl; auto. Qed.

Lemma combine_app {A B} : forall (a1 : list A) (b1 : list B) a2 b2, length a1 = length b1 -> combine (a1 ++ a2) (b1 ++ b2) = combine a1 b1 ++ combine a2 b2.
Proof. induction a1 as [|x a1 IH]; intros [|y b1] a2 b2 H; simpl in *; try discriminate; auto. f_equal. auto. Qed.

Definition dlist (cn : comp * string) := map snd (filter (fun pd => p_free (fst pd)) (combine (all_pars (c_srcs (fst cn))) (grad cn))).

Lemma fold_all norm names : forall l, List.Forall (good1 norm names) l -> (forall cn, In cn l -> length (grad cn) = length (vs cn)) ->
  forall D Sh N base, length Sh = length names ->
  exists b', mfold (deriv_step norm (length names)) (combine (concat (map flags l)) (concat (map dlist l))) (D, Sh, N, base * length names)
  = Ok (D ++ concat (map (fun cn => pick (mO cn) (grad cn)) l), fold_left (fun a cn => vplus a (pick (mS norm cn) (grad cn))) l Sh,
        N ++ concat (map (fun cn => pick (mN norm cn) (grad cn)) l), b') /\ length (concat (map flags l)) = length (concat (map dlist l)).
Proof.
  induction l as [|cn l IH]; intros HG HL D Sh N base HS.
  - simpl. rewrite !app_nil_r. eauto.
  - inversion HG as [|? ? G1 GR]; subst. cbn [map concat fold_left].
    assert (L1 : length (grad cn) = length (vs cn)) by (apply HL; left; auto).
    pose proof (flags_len cn L1) as FL. fold (dlist cn) in FL. rewrite combine_app by auto. rewrite mfold_app2.
    pose proof (good_counts _ _ _ G1) as CS.
    assert (MS : mS norm cn = map (fun x => TS (snd cn) norm (fst x) (p_name (snd x)) (p_free (snd x))) (ft cn)) by apply ft_mask.
    assert (MO : mO cn = map (fun x => TO (snd cn) (fst x) (p_name (snd x)) (p_free (snd x))) (ft cn)) by apply ft_mask.
    assert (MN : mN norm cn = map (fun x => TN (snd cn) norm (fst x) (p_name (snd x)) (p_free (snd x))) (ft cn)) by apply ft_mask.
    assert (FO := fold_one norm (snd cn) (length names) (ft cn) (grad cn) D Sh N base 0). rewrite Nat.add_0_r in FO. cbv zeta in FO. rewrite <- MS, <- MO, <- MN in FO.
    rewrite ft_flags. unfold dlist at 1. rewrite ft_pars. rewrite FO; clear FO; auto.
    + cbn [obind]. rewrite CS. replace (base * length names + (0 + length names)) with (S base * length names) by lia.
      assert (LP : length (pick (mS norm cn) (grad cn)) = length names). { rewrite pick_length; auto. rewrite L1. apply mask_length. }
      pose proof (addfrom_all (pick (mS norm cn) (grad cn)) [] Sh ltac:(congruence)) as AF. simpl in AF. rewrite AF.
      destruct (IH GR (fun x hx => HL x (or_intror hx)) (D ++ pick (mO cn) (grad cn)) (vplus Sh (pick (mS norm cn) (grad cn))) (N ++ pick (mN norm cn) (grad cn)) (S base)) as (b' & A & Bb).
      { unfold vplus. rewrite map_length, combine_length. lia. }
      exists b'. rewrite A. split; [now rewrite <- !app_assoc|]. rewrite !app_length, Bb, <- ft_flags, FL. reflexivity.
    + rewrite L1. unfold vs, vals_of. rewrite ft_pars, !map_length. auto.
    + lia.
Qed.

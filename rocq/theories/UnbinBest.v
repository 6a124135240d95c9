(** The best fit seen so far: for C50. *)
From Coq Require Import Reals Lra Permutation Sorted.
From Verif Require Import Base SMap AccumModel AccumProofs BinnedProofs UnbinModel UnbinSpec UnbinProofs UnbinRuns UnbinHist UnbinCareful.
Local Open Scope nat_scope.

Section Best.
Context (ph : uphys) (g : ucfg) (npar : Z -> nat).
Hypothesis Hc : uc_catch g = false.
Notation nev := (uc_nev g).
Notation CI := (CI ph g npar).

Definition Binv (L : list (R * list R)) (S : sst) : Prop :=
  (p_best S = worst /\ forall v p, In (v, p) L -> (v <= worst)%R) \/
  (In (p_best S, p_bestpar S) L /\ forall v p, In (v, p) L -> (v <= p_best S)%R).
Lemma seen_app m l1 : forall l2, seen ph g m (l1 ++ l2) = seen ph g m l1 ++ seen ph g (fold_left act l1 m) l2.
Proof. revert m. induction l1 as [|a l1 IH]; intros m l2; simpl; auto. destruct a; simpl; rewrite IH; auto. Qed.
Lemma CI_values m S st : CI m S st -> p_pv S = all_values m.
Proof.
  intros C. pose proof (c_core _ _ _ _ _ _ C) as K. rewrite <- (proj1 (c_pvok _ _ _ _ _ _ C)), (c_pv _ _ _ _ _ _ C), (k_src _ _ _ _ _ K). rewrite <- (c_now _ _ _ _ _ _ C).
  apply lens_flat with (npar := npar). apply K. exact (k_len _ _ _ _ _ K).
Qed.
Lemma best_step L m S st a : CI m S st -> same_sources a -> Binv L S -> Binv (L ++ seen ph g m [a]) (fold_left (spec_step ph g) (calls a) S).
Proof.
  intros C N B. assert (Keep : forall S', p_best S' = p_best S -> p_bestpar S' = p_bestpar S -> Binv (L ++ []) S').
  { intros S' E1 E2. rewrite app_nil_r. unfold Binv. rewrite E1, E2. exact B. }
  destruct a as [n s|n|n p fr|f| | |]; try contradiction; cbn [calls fold_left seen]; try (apply Keep; reflexivity).
  - apply Keep; unfold spec_step; destruct (mfind n (p_src S)); reflexivity.
  - unfold spec_step. rewrite (spec_fresh _ _ _ _ _ _ C). rewrite (c_eb _ _ _ _ _ _ C). simpl excluded. cbn [negb andb].
    destruct (Rltb_spec (p_best S) (fresh_value ph g m None)) as [Hlt|Hge].
    + right. simpl. rewrite (CI_values _ _ _ C). split. apply in_app_iff. right. now left.
      intros v p I. apply in_app_iff in I as [I|[I|[]]]. destruct B as [[B1 B2]|[B1 B2]]. apply B2 in I. lra. apply B2 in I. lra. inversion I; lra.
    + destruct B as [[B1 B2]|[B1 B2]].
      * left. split; auto. intros v p I. apply in_app_iff in I as [I|[I|[]]]. now apply B2 in I. inversion I; lra.
      * right. split. apply in_app_iff. now left. intros v p I. apply in_app_iff in I as [I|[I|[]]]. now apply B2 in I. inversion I; lra.
Qed.
Lemma best_run : forall l L m S st st', Forall (action_ok npar) l -> Forall same_sources l -> CI m S st -> Binv L S -> urun ph g st (flat_map calls l) = Some st' ->
  CI (fold_left act l m) (fold_left (spec_step ph g) (flat_map calls l) S) st' /\ Binv (L ++ seen ph g m l) (fold_left (spec_step ph g) (flat_map calls l) S).
Proof.
  induction l as [|a l IH]; intros L m S st st' O N C B H; cbn [flat_map fold_left] in *.
  - simpl in H. inversion H; subst. simpl. rewrite app_nil_r. auto.
  - inversion O as [|? ? O1 O2]; subst. inversion N as [|? ? N1 N2]; subst. destruct (action_step ph g npar Hc m S st a O1 C) as (st1 & A & C1). rewrite urun_app, A in H.
    pose proof (best_step L m S st a C N1 B) as B1. destruct (IH _ _ _ _ _ O2 N2 C1 B1 H) as [C2 B2].
    rewrite fold_left_app. split; [exact C2|]. assert (E : seen ph g m (a :: l) = seen ph g m [a] ++ seen ph g (act m a) l). { apply (seen_app m [a] l). } rewrite E, app_assoc. exact B2.
Qed.

(** ** Same sources with other values *)
Definition shape (a b : Z * usrc) : Prop := fst a = fst b /\ us_fn (snd a) = us_fn (snd b) /\ us_img (snd a) = us_img (snd b) /\ us_grid (snd a) = us_grid (snd b) /\ us_diffuse (snd a) = us_diffuse (snd b) /\ length (us_par (snd a)) = length (us_par (snd b)).
Definition fshape (a b : Z * usrc) : Prop := shape a b /\ us_fr (snd a) = us_fr (snd b) /\ (us_isfree (snd a) = false -> us_par (snd a) = us_par (snd b)).
Lemma shape_refl a : shape a a. Proof. repeat split. Qed.
Lemma shape_sym a b : shape a b -> shape b a. Proof. intros (A & B & C & D & E & F). repeat split; auto. Qed.
Lemma shape_trans a b c : shape a b -> shape b c -> shape a c. Proof. intros (A & B & C & D & E & F) (A' & B' & C' & D' & E' & F'). repeat split; congruence. Qed.
Lemma fshape_refl a : fshape a a. Proof. split. apply shape_refl. auto. Qed.
Lemma fshape_trans a b c : fshape a b -> fshape b c -> fshape a c.
Proof.
  intros (A & B & C) (A' & B' & C'). split. eapply shape_trans; eauto. split. congruence. intros H. rewrite C by auto. apply C'. unfold us_isfree in *. now rewrite <- B.
Qed.
Lemma Forall2_refl {A} (P : A -> A -> Prop) l : (forall a, P a a) -> Forall2 P l l. Proof. intros H. induction l; constructor; auto. Qed.
Lemma Forall2_trans {A} (P : A -> A -> Prop) : (forall a b c, P a b -> P b c -> P a c) -> forall l1 l2 l3, Forall2 P l1 l2 -> Forall2 P l2 l3 -> Forall2 P l1 l3.
Proof. intros T. induction l1; intros l2 l3 H1 H2; inversion H1; subst; inversion H2; subst; constructor; eauto. Qed.
Lemma Forall2_sym {A} (P : A -> A -> Prop) : (forall a b, P a b -> P b a) -> forall l1 l2, Forall2 P l1 l2 -> Forall2 P l2 l1.
Proof. intros T. induction 1; constructor; auto. Qed.
Lemma Forall2_weak {A} (P Q : A -> A -> Prop) : (forall a b, P a b -> Q a b) -> forall l1 l2, Forall2 P l1 l2 -> Forall2 Q l1 l2.
Proof. intros T. induction 1; constructor; auto. Qed.
Lemma shape_insert n (s s' : usrc) : forall m, sorted m -> mfind n m = Some s -> shape (n, s) (n, s') -> Forall2 shape m (minsert n s' m).
Proof.
  induction m as [|[k z] m IH]; intros Sm F H; [discriminate|]. simpl in F |- *. apply sorted_cons in Sm as [Sm Fo]. rewrite Forall_forall in Fo.
  destruct (Z.eqb_spec n k) as [->|Hk].
  - inversion F; subst. rewrite Z.ltb_irrefl. constructor; auto. apply Forall2_refl, shape_refl.
  - assert (k < n)%Z. { apply mfind_in in F. apply (in_map fst) in F. apply Fo in F. exact F. }
    destruct (Z.ltb_spec n k); [lia|]. constructor. apply shape_refl. auto.
Qed.
Lemma CI_sorted m S st : CI m S st -> sorted m.
Proof. intros C. rewrite <- (c_now _ _ _ _ _ _ C). apply sorted_now, C. Qed.
Lemma CI_lens m S st n s : CI m S st -> mfind n m = Some s -> length (us_par s) = npar n /\ length (us_fr s) = npar n.
Proof.
  intros C F. rewrite <- (c_now _ _ _ _ _ _ C), mfind_now in F. destruct (mfind n (p_src S)) as [x|] eqn:Fx; [|discriminate]. inversion F; subst. apply (k_len _ _ _ _ _ (c_core _ _ _ _ _ _ C) n x Fx).
Qed.
Lemma act_shape m S st a : CI m S st -> action_ok npar a -> same_sources a -> Forall2 shape m (act m a).
Proof.
  intros C O N. destruct a as [n s|n|n p fr|f| | |]; try contradiction; cbn [act]; try apply Forall2_refl, shape_refl.
  - destruct (mfind n m) as [s|] eqn:F; [|apply Forall2_refl, shape_refl]. eapply shape_insert; eauto. eapply CI_sorted; eauto.
    repeat split; simpl. destruct O as [O1 _]. rewrite O1. eapply CI_lens; eauto.
  - clear. induction m as [|[n s] m IH]; simpl; constructor; auto. repeat split; simpl. now rewrite map_length, seq_length.
Qed.
Lemma act_fshape m a : free_only a -> Forall2 fshape m (act m a).
Proof.
  intros N. destruct a as [n s|n|n p fr|f| | |]; try contradiction; cbn [act]; try apply Forall2_refl, fshape_refl.
  clear. induction m as [|[n s] m IH]; simpl; constructor; auto. split; [repeat split; simpl; now rewrite map_length, seq_length|]. split; [reflexivity|]. simpl snd. intros H. now rewrite set_free_values_fixed.
Qed.
Lemma seen_shape : forall l m S st v p, Forall (action_ok npar) l -> Forall same_sources l -> CI m S st -> In (v, p) (seen ph g m l) ->
  exists m', Forall2 shape m' (fold_left act l m) /\ v = fresh_value ph g m' None /\ p = all_values m' /\ (Forall free_only l -> Forall2 fshape (fold_left act l m) m').
Proof.
  assert (Hs : forall l m S st, Forall (action_ok npar) l -> Forall same_sources l -> CI m S st -> Forall2 shape m (fold_left act l m)).
  { induction l as [|a l IH]; intros m S st O N C. apply Forall2_refl, shape_refl. inversion O as [|? ? O1 O2]; subst. inversion N as [|? ? N1 N2]; subst. cbn [fold_left].
    destruct (action_step ph g npar Hc m S st a O1 C) as (st1 & A & C1). eapply Forall2_trans; [apply shape_trans| |eapply IH; eauto]. eapply act_shape; eauto. }
  assert (Hf : forall l m, Forall free_only l -> Forall2 fshape m (fold_left act l m)).
  { induction l as [|a l IH]; intros m N. apply Forall2_refl, fshape_refl. inversion N as [|? ? N1 N2]; subst. cbn [fold_left]. eapply Forall2_trans; [apply fshape_trans| |apply IH; auto]. now apply act_fshape. }
  assert (fsym : forall a b, fshape a b -> fshape b a).
  { intros a b (A & B & D). split. now apply shape_sym. split; auto. intros H. symmetry. apply D. unfold us_isfree in *. now rewrite B. }
  induction l as [|a l IH]; intros m S st v p O N C I; [destruct I|]. inversion O as [|? ? O1 O2]; subst. inversion N as [|? ? N1 N2]; subst. cbn [fold_left].
  destruct (action_step ph g npar Hc m S st a O1 C) as (st1 & A & C1).
  assert (Ind : In (v, p) (seen ph g (act m a) l) -> exists m', Forall2 shape m' (fold_left act l (act m a)) /\ v = fresh_value ph g m' None /\ p = all_values m' /\ (Forall free_only (a :: l) -> Forall2 fshape (fold_left act l (act m a)) m')).
  { intros J. destruct (IH _ _ _ v p O2 N2 C1 J) as (m' & X1 & X2 & X3 & X4). exists m'. split; auto. split; auto. split; auto. intros F. inversion F; auto. }
  destruct a as [n s|n|n p' fr|f| | |]; try contradiction; try (apply Ind; exact I).
  destruct I as [I|I]; [|apply Ind; exact I]. inversion I; subst. exists m. split; [|split; [reflexivity|split; [reflexivity|]]].
  - apply (Hs l m _ _ O2 N2 C1).
  - intros F. inversion F as [|? ? _ F2]; subst. simpl act. apply (Forall2_sym _ fsym). now apply Hf.
Qed.
Definition upto_flags (a b : Z * usrc) : Prop := fst a = fst b /\ us_fn (snd a) = us_fn (snd b) /\ us_img (snd a) = us_img (snd b) /\ us_grid (snd a) = us_grid (snd b) /\ us_diffuse (snd a) = us_diffuse (snd b) /\ us_par (snd a) = us_par (snd b).
Lemma fresh_upto eb : forall m m', Forall2 upto_flags m m' -> fresh_value ph g m eb = fresh_value ph g m' eb.
Proof.
  intros m m' H. assert (T : forall j, total_density ph m j = total_density ph m' j).
  { intros j. unfold total_density. f_equal. induction H as [|[n s] [n' s'] m m' (A & B & C & D & E & F) _ IH]; simpl in *; auto. subst n'. f_equal; auto. unfold density. now rewrite B, C, E, F. }
  assert (L : length m = length m') by (clear T; induction H; simpl; auto).
  unfold fresh_value. destruct (excluded g eb); auto. f_equal.
  - unfold data_part. f_equal. apply map_ext. intros j. unfold log_density. now rewrite T, L.
  - f_equal. clear T L. induction H as [|[n s] [n' s'] m m' (A & B & C & D & E & F) _ IH]; simpl in *; auto. f_equal; auto. now rewrite B, C, F.
Qed.
Lemma set_all_upto : forall m' m, Forall2 shape m' m -> Forall2 upto_flags (set_all m (all_values m')) m'.
Proof.
  intros m' m H. induction H as [|[n s] [n' s'] m' m (A & B & C & D & E & F) _ IH]; simpl in *; constructor.
  - subst n'. unfold all_values. simpl. rewrite <- F. rewrite firstn_app, Nat.sub_diag. simpl. rewrite app_nil_r, firstn_all. repeat split; simpl; auto.
  - unfold all_values in *. simpl. rewrite <- F. rewrite skipn_app, Nat.sub_diag. simpl. rewrite skipn_all. simpl. exact IH.
Qed.
Lemma upto_values m m' : Forall2 upto_flags m m' -> all_values m = all_values m'.
Proof. unfold all_values. induction 1 as [|[n s] [n' s'] m m' (A & B & C & D & E & F) _ IH]; simpl in *; auto. now rewrite F, IH. Qed.
Lemma shape_values m' m : Forall2 shape m' m -> length (all_values m') = length (all_values m).
Proof. unfold all_values. induction 1 as [|[n s] [n' s'] m' m (A & B & C & D & E & F) _ IH]; simpl in *; auto. rewrite !app_length. lia. Qed.
(** Restored with the values of a model of the same shape. *)
Lemma restore_run m m' S st : CI m S st -> p_bestpar S = all_values m' -> Forall2 shape m' m -> exists st', restoreBestFit ph g st = (st', Ok tt) /\ Forall2 upto_flags (u_src st') m' /\
  (Forall2 fshape m m' -> CI (set_all m (all_values m')) (spec_step ph g S URestore) st').
Proof.
  intros C E Q. pose proof (c_core _ _ _ _ _ _ C) as K. pose proof (c_pvok _ _ _ _ _ _ C) as P.
  assert (L : length (p_bestpar S) = length (p_pv S)). { rewrite E, (CI_values _ _ _ C). now apply shape_values. }
  destruct (restore_ok ph g npar S st K P) as (st' & o & A & B & D & F & G). destruct (G L) as (Ho & Hev & Hf & Hp). subst o.
  assert (SS : spec_step ph g S URestore = sync (with_psrc S (give (p_src S) (p_bestpar S)))). { unfold spec_step. rewrite L, Nat.eqb_refl. reflexivity. }
  assert (En : now (p_src (spec_step ph g S URestore)) = set_all m (all_values m')). { rewrite SS, now_sync. simpl. rewrite <- now_give, (c_now _ _ _ _ _ _ C), E. reflexivity. }
  assert (Es : u_src st' = set_all m (all_values m')) by (rewrite (k_src _ _ _ _ _ D); auto).
  exists st'. split; auto. split. { rewrite Es. now apply set_all_upto. }
  intros Hfs.
  (* fixed sources keep their values *)
  assert (Em : u_src st = m) by (rewrite (k_src _ _ _ _ _ K); apply C).
  assert (Fix : forall n s, mfind n (set_all m (all_values m')) = Some s -> exists s0, mfind n m = Some s0 /\ us_isfree s = us_isfree s0 /\ (us_isfree s = false -> s = s0)).
  { clear -Hfs. induction Hfs as [|[n s] [n' s'] m m' ((A & B & C & D & E & F) & X & Y) _ IH]; intros k t; simpl in *; [discriminate|]. subst n'.
    unfold all_values. simpl. rewrite F. rewrite firstn_app, Nat.sub_diag, firstn_O, app_nil_r, firstn_all. rewrite skipn_app, Nat.sub_diag, skipn_all. simpl.
    destruct (k =? n)%Z.
    - intros [= <-]. exists s. split; auto. split; auto. unfold us_isfree at 1. simpl. intros H. rewrite <- Y by exact H. unfold set_par. now destruct s.
    - apply IH. }
  assert (Gv : forall mm vals k y, mfind k (give mm vals) = Some y -> exists y0 p, mfind k mm = Some y0 /\ y = with_now (fun s => set_par s p (us_fr s)) y0).
  { induction mm as [|[n x] mm IH]; intros vals k y Hy; simpl in *; [discriminate|]. destruct (k =? n)%Z. inversion Hy; eauto. eauto. }
  constructor; auto.
  - intros n x Fx. pose proof Fx as Fx0. rewrite SS, find_sync in Fx. simpl p_src in Fx. destruct (mfind n (give (p_src S) (p_bestpar S))) as [y|] eqn:Fy; [|discriminate]. simpl in Fx.
    destruct (Gv _ _ _ _ Fy) as (y0 & p & Fy0 & Ey). destruct (c_at _ _ _ _ _ _ C n y0 Fy0) as [Y1 Y2].
    assert (Gy : us_grid (ss_now y) = None) by (rewrite Ey; exact Y2).
    inversion Fx as [Ex]. clear Fx. destruct (us_isfree (ss_now y)) eqn:Fr; simpl.
    + rewrite Gy. auto.
    + split; auto. destruct (Fix n (ss_now y)) as (s0 & Fs0 & _ & Hs0). { rewrite <- En, mfind_now, Fx0, <- Ex. reflexivity. }
      rewrite Hs0 by auto. rewrite <- (c_now _ _ _ _ _ _ C), mfind_now, Fy0 in Fs0. inversion Fs0; subst s0. rewrite Ey. simpl. exact Y1.
  - rewrite SS. apply C.
  - intros n s j. rewrite Es, Hev. intros Fs Fr Hj. destruct (Fix n s Fs) as (s0 & Fs0 & Hfr & Hs0). rewrite (Hs0 Fr). apply C; auto. now rewrite Em. congruence.
Qed.
End Best.

(** C63: a snapshot of a model reports exactly what has changed since it was
    taken, and the fit scanner refreshes what that calls for. *)
From Verif Require Import Base SMap SnapModel SnapSpec SnapProofs SnapBits.
From Coq Require Import NArith Reals Lra Sorted.
Local Open Scope N_scope.

Ltac bools := repeat match goal with
  | H : context [?a || false] |- _ => rewrite (Bool.orb_false_r a) in H
  | |- context [?a || false] => rewrite (Bool.orb_false_r a)
  | |- context [false || ?a] => change (false || a) with a
  end.

(** Comparing never fails; it reports another spectral or spatial type exactly when the type or the names of
    the parameters differ, a freed or fixed source exactly when the normalisation was freed or fixed, and
    something exactly when something differs. *)
Theorem C63_changed : forall a b, well_named a -> well_named b ->
  exists st, compare (latch_source ss_empty a true) b = Ok st /\
    (changed st = true <-> differs a b) /\
    (spec_model_type_changed st = true <-> ~ same_spectral_type a b) /\
    (spatial_model_type_changed st = true <-> ~ same_spatial_type a b) /\
    (source_freed st = true <-> p_free (s_norm a) = false /\ p_free (s_norm b) = true) /\
    (source_fixed st = true <-> p_free (s_norm a) = true /\ p_free (s_norm b) = false).
Proof.
  intros a b Ha Hb. destruct (compare_ok a b Ha Hb) as (sp & xp & E & SP & XP). unfold latched in E.
  eexists. split; [exact E|]. clear E. unfold differs. rewrite <- b_moved_spec. rewrite norm_of. unfold b_moved, b_free.
  destruct SP as [[S1 (v & s & p & -> & S2)]|[S1 (v & s & p & ->)]]; destruct XP as [[X1 (v' & s' & p' & -> & X2)]|[X1 (v' & s' & p' & ->)]];
    autorewrite with snap; bools; rewrite ?Bool.orb_true_r; rewrite ?Bool.orb_true_iff, <- ?Bool.orb_true_iff.
  all: repeat split; intros; try tauto; try discriminate.
  all: try (destruct (p_free (s_norm a)) eqn:?, (p_free (s_norm b)) eqn:?; simpl in *; bools; (tauto || congruence)).
  all: repeat rewrite Bool.orb_true_iff in *; try tauto.
  all: destruct H as [-> ->]; reflexivity.
Qed.
Print Assumptions C63_changed.

(** When the types are the same, each flag tells exactly what its name says.  Missing: a source whose spectral
    or spatial parameters have other names (see below). *)
Theorem C63_flags_partial : forall a b, well_named a -> well_named b ->
  same_spectral_type a b -> same_spatial_type a b ->
  exists st, compare (latch_source ss_empty a true) b = Ok st /\
    (norm_value_changed st = true <-> value_moved (p_val (s_norm a)) (p_val (s_norm b))) /\
    (norm_status_changed st = true <-> p_free (s_norm a) <> p_free (s_norm b)) /\
    (norm_prior_changed st = true <-> prior_moved (p_prior (s_norm a)) (p_prior (s_norm b))) /\
    (norm_changed st = true <-> par_moved (s_norm a) (s_norm b)) /\
    (spec_changed st = true <-> some_moved (shape_pars a) (shape_pars b)) /\
    (spec_free_changed st = true <-> some_moved (shape_pars a) (shape_pars b) /\ p_free (s_norm a) = true) /\
    (spec_fixed_changed st = true <-> some_moved (shape_pars a) (shape_pars b) /\ p_free (s_norm a) = false) /\
    (spatial_changed st = true <-> some_moved (space_pars a) (space_pars b)) /\
    (model_changed st = true <-> some_moved (shape_pars a) (shape_pars b) \/ some_moved (space_pars a) (space_pars b)).
Proof.
  intros a b Ha Hb TS TX. destruct (compare_ok a b Ha Hb) as (sp & xp & E & SP & XP). unfold latched in E.
  eexists. split; [exact E|]. clear E. rewrite norm_of.
  destruct SP as [[S1 (v & s & p & -> & S2)]|[S1 _]]; [|tauto]. destruct XP as [[X1 (v' & s' & p' & -> & X2)]|[X1 _]]; [|tauto].
  rewrite <- b_moved_spec. unfold b_moved. autorewrite with snap. bools. rewrite <- S2, <- X2, <- b_pri_spec, <- b_free_spec. unfold b_val. rewrite <- moved_spec.
  rewrite !Bool.orb_true_iff, !Bool.andb_true_iff, !Bool.orb_true_iff, Bool.negb_true_iff, Bool.negb_false_iff, !Bool.negb_true_iff. repeat split; intros; tauto.
Qed.
Print Assumptions C63_flags_partial.

(** ** Whole models *)
Lemma minsert_last {V} (m : @smap V) k v : List.Forall (fun e => (fst e < k)%Z) m -> minsert k v m = m ++ [(k, v)].
Proof.
  induction m as [|[k' v'] m IH]; intros H; simpl; auto. inversion H as [|? ? A B]; subst. simpl in A.
  destruct (Z.ltb_spec k k'); [lia|]. destruct (Z.eqb_spec k k'); [lia|]. now rewrite IH.
Qed.
Lemma mfind_last {V} (m : @smap V) k v : List.Forall (fun e => (fst e < k)%Z) m -> mfind k (m ++ [(k, v)]) = Some v.
Proof.
  induction m as [|[k' v'] m IH]; intros H; simpl. { now rewrite Z.eqb_refl. } inversion H as [|? ? A B]; subst. simpl in A.
  destruct (Z.eqb_spec k k'); [lia|]. now apply IH.
Qed.
Lemma minsert_again {V} (m : @smap V) k v w : List.Forall (fun e => (fst e < k)%Z) m -> minsert k w (m ++ [(k, v)]) = m ++ [(k, w)].
Proof.
  induction m as [|[k' v'] m IH]; intros H; simpl. { now rewrite Z.ltb_irrefl, Z.eqb_refl. } inversion H as [|? ? A B]; subst. simpl in A.
  destruct (Z.ltb_spec k k'); [lia|]. destruct (Z.eqb_spec k k'); [lia|]. now rewrite IH.
Qed.
Lemma mfind_big {V} (m : @smap V) k : List.Forall (fun e => (fst e < k)%Z) m -> mfind k m = None.
Proof.
  induction m as [|[k' v'] m IH]; intros H; simpl; auto. inversion H as [|? ? A B]; subst. simpl in A. destruct (Z.eqb_spec k k'); [lia|]. auto.
Qed.
Lemma latch_model_map (m : list (Z * src)) : StronglySorted Z.lt (map fst m) ->
  latch_model m = map (fun e => (fst e, latched (snd e))) m.
Proof.
  intros H. unfold latch_model.
  assert (A : forall (l : list (Z * src)) (acc : @smap ssrc), StronglySorted Z.lt (map fst l) ->
    (forall e x, In e acc -> In x (map fst l) -> (fst e < x)%Z) ->
    fold_left (fun m (e : Z * src) =>
               let m := match mfind (fst e) m with None => minsert (fst e) ss_empty m | Some _ => m end in
               match mfind (fst e) m with
               | Some old => minsert (fst e) (latch_source old (snd e) true) m
               | None => m
               end) l acc = acc ++ map (fun e => (fst e, latched (snd e))) l).
  { clear. induction l as [|[k s] l IH]; intros acc Hs Ha; simpl. { now rewrite app_nil_r. }
    assert (F : List.Forall (fun e : Z * ssrc => (fst e < k)%Z) acc). { apply Forall_forall. intros e He. apply Ha; auto. now left. }
    rewrite (mfind_big acc k F), (minsert_last acc k _ F), (mfind_last acc k _ F), (minsert_again acc k _ _ F).
    inversion Hs as [|? ? S1 S2]; subst. rewrite IH; auto.
    - rewrite <- app_assoc. reflexivity.
    - intros e x He Hx. apply in_app_or in He. destruct He as [He|[<-|[]]]; [apply Ha; auto; now right|]. rewrite Forall_forall in S2. now apply S2. }
  rewrite A; auto. intros e x [].
Qed.
Lemma mfind_map (m : list (Z * src)) n : mfind n (map (fun e => (fst e, latched (snd e))) m) = option_map latched (mfind n m).
Proof. induction m as [|[k s] m IH]; simpl; auto. destruct (n =? k)%Z; auto. Qed.
Lemma mfind_iff (m : list (Z * src)) n s : good_model m -> mfind n m = Some s <-> In (n, s) m.
Proof. intros [H _]. split; [apply mfind_in|]. now apply mfind_In. Qed.
Lemma mfind_out (m : list (Z * src)) n : mfind n m = None <-> ~ In n (map fst m).
Proof. apply mfind_none. Qed.

(** What a named source of the snapshot turned into. *)
Definition gone_or_differs (new : list (Z * src)) (n : Z) (a : src) : Prop :=
  ~ In n (map fst new) \/ exists b, In (n, b) new /\ differs a b.

Lemma source_status old new n a : good_model old -> good_model new -> In (n, a) old ->
  exists c, compare_source (latch_model old) n (mfind n new) = Ok c /\
    (changed c = true <-> gone_or_differs new n a) /\
    (source_freed c = true <-> exists b, In (n, b) new /\ p_free (s_norm a) = false /\ p_free (s_norm b) = true) /\
    (forall b, In (n, b) new -> compare (latched a) b = Ok c).
Proof.
  intros Ho Hn Ha. pose proof (proj2 (mfind_iff old n a Ho) Ha) as Fa.
  unfold compare_source. rewrite latch_model_map by apply Ho. rewrite mfind_map, Fa. simpl. destruct (mfind n new) as [b|] eqn:Fb.
  - apply (mfind_iff new n b Hn) in Fb. destruct (C63_changed a b) as (st & E & E1 & _ & _ & E2 & _). { apply Ho with n; auto. } { apply Hn with n; auto. }
    assert (U : forall b', In (n, b') new -> b' = b). { intros b' Hb'. apply (mfind_iff new n b' Hn) in Hb'. apply (mfind_iff new n b Hn) in Fb. congruence. }
    exists st. split; [exact E|]. split; [|split].
    + rewrite E1. unfold gone_or_differs. split; [intros D; right; eauto|]. intros [D|(b' & D1 & D2)].
      * exfalso. apply D. change n with (fst (n, b)). now apply in_map.
      * now rewrite <- (U b' D1).
    + rewrite E2. split; [intros D; exists b; auto|]. intros (b' & D1 & D2). now rewrite <- (U b' D1).
    + intros b' Hb'. rewrite (U b' Hb'). exact E.
  - eexists. split; [reflexivity|]. pose proof Fb as Fb'. apply mfind_out in Fb'.
    assert (U : forall b', In (n, b') new -> False). { intros b' Hb'. apply Fb'. change n with (fst (n, b')). now apply in_map. }
    split; [|split].
    + split; [intros _; now left|]. intros _. destruct (negb _); reflexivity.
    + split; [destruct (negb _); discriminate|]. intros (b & Hb & _). destruct (U b Hb).
    + intros b Hb. destruct (U b Hb).
Qed.

Definition is_in (l : list Z) (n : Z) : bool := existsb (Z.eqb n) l.
Lemma is_in_spec l n : is_in l n = true <-> In n l.
Proof.
  unfold is_in. rewrite existsb_exists. split.
  - intros (x & H & E). apply Z.eqb_eq in E. now subst.
  - intros H. exists n. split; auto. apply Z.eqb_refl.
Qed.
Lemma loop_run snap model latched (c : Z -> N) (todo : @smap ssrc) : forall r,
  (forall n, In n (map fst todo) -> compare_source snap n (mfind n model) = Ok (c n)) ->
  latched_loop snap model latched todo r =
  Ok {| latched_status := fold_left N.lor (map c (filter (is_in latched) (map fst todo))) (latched_status r);
        changed_latched := changed_latched r ++ filter (fun n => is_in latched n && changed (c n)) (map fst todo);
        unlatched_status := fold_left N.lor (map c (filter (fun n => negb (is_in latched n)) (map fst todo))) (unlatched_status r);
        changed_unlatched := changed_unlatched r ++ filter (fun n => negb (is_in latched n) && changed (c n)) (map fst todo) |}.
Proof.
  induction todo as [|[n ss] todo IH]; intros r H; simpl. { rewrite !app_nil_r. now destruct r. }
  rewrite (H n) by now left. rewrite IH by (intros; apply H; now right). fold (is_in latched n).
  destruct (is_in latched n); simpl; destruct (changed (c n)); simpl; rewrite <- ?app_assoc; reflexivity.
Qed.
Lemma flag_fold (F : N -> bool) l : (forall a b, F (N.lor a b) = F a || F b) -> forall s, F (fold_left N.lor l s) = F s || existsb F l.
Proof.
  intros HF. induction l as [|x l IH]; intros s; simpl. { now rewrite Bool.orb_false_r. } rewrite IH, HF. now rewrite Bool.orb_assoc.
Qed.

(** The statuses of all sources of the snapshot. *)
Lemma statuses old new : good_model old -> good_model new ->
  exists c : Z -> N, (forall n a, In (n, a) old -> compare_source (latch_model old) n (mfind n new) = Ok (c n) /\
    (changed (c n) = true <-> gone_or_differs new n a) /\
    (source_freed (c n) = true <-> exists b, In (n, b) new /\ p_free (s_norm a) = false /\ p_free (s_norm b) = true) /\
    (forall b, In (n, b) new -> compare (latched a) b = Ok (c n))).
Proof.
  intros Ho Hn. exists (fun n => match compare_source (latch_model old) n (mfind n new) with Ok c => c | _ => 0 end).
  intros n a Ha. destruct (source_status old new n a Ho Hn Ha) as (c & E & R). rewrite E. split; auto.
Qed.
Lemma keys_latched old : good_model old -> map fst (latch_model old) = map fst old.
Proof. intros Ho. rewrite latch_model_map by apply Ho. rewrite map_map. reflexivity. Qed.
Lemma new_spec old new fr n : good_model old -> good_model new ->
  In n (new_sources (latch_model old) new fr) <-> exists b, In (n, b) new /\ ~ In n (map fst old) /\ p_free (s_norm b) = fr.
Proof.
  intros Ho Hn. unfold new_sources. rewrite in_map_iff. split.
  - intros ([k b] & <- & H). apply filter_In in H. destruct H as [H1 H2]. cbn [fst snd] in *. exists b. split; auto.
    rewrite latch_model_map, mfind_map in H2 by apply Ho. destruct (mfind k old) eqn:E; [discriminate|]. simpl in H2. apply mfind_out in E. split; auto. now apply Bool.eqb_prop.
  - intros (b & H1 & H2 & H3). exists (n, b). split; auto. apply filter_In. split; auto. cbn [fst snd]. rewrite latch_model_map, mfind_map by apply Ho.
    apply mfind_out in H2. rewrite H2. simpl. unfold source_free. rewrite H3. apply Bool.eqb_reflx.
Qed.
Lemma keys_in (m : list (Z * src)) n : In n (map fst m) <-> exists a, In (n, a) m.
Proof.
  split.
  - intros H. apply in_map_iff in H. destruct H as ([k a] & <- & H). eauto.
  - intros (a & H). change n with (fst (n, a)). now apply in_map.
Qed.

(** The lists: a source of the snapshot is listed, once and under the right heading, exactly when it has
    disappeared or differs; a source of the model is listed as new, free or fixed, exactly when the snapshot does
    not have it. *)
Theorem C63_report : forall old new templates, good_model old -> good_model new ->
  exists r nf nx, compare_latched (latch_model old) new templates = Ok (r, nf, nx) /\
    (forall n, In n (changed_latched r) <-> In n templates /\ exists a, In (n, a) old /\ gone_or_differs new n a) /\
    (forall n, In n (changed_unlatched r) <-> ~ In n templates /\ exists a, In (n, a) old /\ gone_or_differs new n a) /\
    (forall n, In n nf <-> exists b, In (n, b) new /\ ~ In n (map fst old) /\ p_free (s_norm b) = true) /\
    (forall n, In n nx <-> exists b, In (n, b) new /\ ~ In n (map fst old) /\ p_free (s_norm b) = false) /\
    NoDup (changed_latched r) /\ NoDup (changed_unlatched r) /\ NoDup nf /\ NoDup nx /\
    (changed (latched_status r) = true <-> changed_latched r <> []) /\
    (changed (unlatched_status r) = true <-> changed_unlatched r <> []).
Proof.
  intros old new T Ho Hn. destruct (statuses old new Ho Hn) as (c & HC).
  assert (HC' : forall n, In n (map fst (latch_model old)) -> compare_source (latch_model old) n (mfind n new) = Ok (c n)).
  { intros n H. rewrite keys_latched in H by auto. apply keys_in in H. destruct H as (a & H). apply (HC n a H). }
  unfold compare_latched. rewrite (loop_run _ _ T c (latch_model old) _ HC'). eexists _, _, _. split; [reflexivity|]. cbn [changed_latched changed_unlatched latched_status unlatched_status app].
  rewrite keys_latched by auto.
  assert (ND : forall m, good_model m -> NoDup (map fst m)).
  { intros m [H _]. clear - H. induction H as [|x l H IH F]; constructor; auto. intros X. rewrite Forall_forall in F. apply F in X. lia. }
  assert (NN : forall fr, NoDup (new_sources (latch_model old) new fr)).
  { intros fr. unfold new_sources. specialize (ND new Hn). clear - ND. induction new as [|e new IH]; simpl in *; [constructor|]. inversion ND as [|? ? A B]; subst.
    match goal with |- context [if ?b then _ else _] => destruct b end; simpl; auto. constructor; auto. intros X. apply A. apply in_map_iff in X. destruct X as (y & <- & Y). apply filter_In in Y. apply in_map. tauto. }
  assert (NE : forall (p q : Z -> bool) l, existsb changed (map c (filter p l)) = true <-> filter (fun n => p n && changed (c n)) l <> []).
  { clear. intros p q l. induction l as [|x l IH]; simpl; [split; [discriminate|congruence]|]. destruct (p x); simpl; auto. destruct (changed (c x)); simpl; auto. split; [discriminate|auto]. }
  split; [|split; [|split; [|split; [|split; [|split; [|split; [|split; [|split]]]]]]]].
  - intros n. rewrite filter_In, Bool.andb_true_iff, is_in_spec, keys_in. split.
    + intros ((a & A) & B & C). split; auto. exists a. split; auto. now apply (HC n a A).
    + intros (B & a & A & C). split; [eauto|]. split; auto. now apply (HC n a A).
  - intros n. rewrite filter_In, Bool.andb_true_iff, Bool.negb_true_iff, keys_in. rewrite <- (is_in_spec T n). split.
    + intros ((a & A) & B & C). split; [congruence|]. exists a. split; auto. now apply (HC n a A).
    + intros (B & a & A & C). split; [eauto|]. split; [now apply Bool.not_true_is_false|]. now apply (HC n a A).
  - intros n. now apply new_spec.
  - intros n. now apply new_spec.
  - apply NoDup_filter. now apply ND.
  - apply NoDup_filter. now apply ND.
  - apply NN.
  - apply NN.
  - rewrite (flag_fold changed) by apply changed_lor. simpl. apply (NE (is_in T) (is_in T)).
  - rewrite (flag_fold changed) by apply changed_lor. simpl. apply (NE (fun n => negb (is_in T n)) (is_in T)).
Qed.
Print Assumptions C63_report.

(** Comparing with a whole model lists, in order, the sources that are new or differ; the status is "changed"
    exactly when the list is not empty.  Missing: sources that have disappeared (see below). *)
Theorem C63_compare_model_partial : forall old new, good_model old -> good_model new ->
  exists st l, compare_model (latch_model old) new (0, []) = Ok (st, l) /\
    (forall n, In n l <-> exists b, In (n, b) new /\ (~ In n (map fst old) \/ exists a, In (n, a) old /\ differs a b)) /\
    StronglySorted Z.lt l /\ (changed st = true <-> l <> []).
Proof.
  intros old new Ho Hn.
  assert (C : forall n b, In (n, b) new -> exists c, compare_source (latch_model old) n (Some b) = Ok c /\
     (changed c = true <-> ~ In n (map fst old) \/ exists a, In (n, a) old /\ differs a b)).
  { intros n b Hb. unfold compare_source. rewrite latch_model_map by apply Ho. rewrite mfind_map. destruct (mfind n old) as [a|] eqn:Fa; simpl.
    - apply (mfind_iff old n a Ho) in Fa. destruct (C63_changed a b) as (st & E & E1 & _). { apply Ho with n; auto. } { apply Hn with n; auto. }
      exists st. split; [exact E|]. rewrite E1. split; [intros D; right; eauto|]. intros [D|(a' & D1 & D2)].
      + exfalso. apply D. apply keys_in. eauto.
      + apply (mfind_iff old n _ Ho) in D1. apply (mfind_iff old n _ Ho) in Fa. congruence.
    - eexists. split; [reflexivity|]. apply mfind_out in Fa. split; [now left|]. intros _. destruct (source_free b); reflexivity. }
  assert (L : forall l st0 l0, (forall n b, In (n, b) l -> In (n, b) new) ->
     exists st l', compare_model (latch_model old) l (st0, l0) = Ok (st, l0 ++ l') /\
       (forall n, In n l' <-> exists b, In (n, b) l /\ (~ In n (map fst old) \/ exists a, In (n, a) old /\ differs a b)) /\
       (StronglySorted Z.lt (map fst l) -> StronglySorted Z.lt l') /\ changed st = changed st0 || match l' with [] => false | _ => true end).
  { induction l as [|[n b] l IH]; intros st0 l0 Hl; cbn [compare_model].
    - exists st0, []. rewrite app_nil_r, Bool.orb_false_r. split; [reflexivity|]. split; [intros n; split; [intros []|intros (b & [] & _)]|]. auto.
    - destruct (C n b (Hl n b (or_introl eq_refl))) as (c & -> & Hc). destruct (changed c) eqn:Ec; cbn [fst snd].
      + destruct (IH (N.lor st0 c) (l0 ++ [n])%list) as (st & l' & -> & A & B & D). { intros; apply Hl; now right. }
        exists st, (n :: l'). rewrite <- app_assoc. split; [reflexivity|]. split; [|split].
        * intros m. simpl. rewrite A. split.
          -- intros [<-|(b' & X)]; [exists b; split; [now left|now apply Hc]|]. exists b'. tauto.
          -- intros (b' & [X|X] & Y); [left; congruence|right; eauto].
        * intros S. inversion S as [|? ? S1 S2]; subst. constructor; [auto|]. apply Forall_forall. intros x Hx. apply A in Hx. destruct Hx as (b' & Hx & _).
          rewrite Forall_forall in S2. apply S2. apply keys_in. eauto.
        * rewrite D, changed_lor, Ec. now rewrite !Bool.orb_true_r.
      + destruct (IH (N.lor st0 c) l0) as (st & l' & -> & A & B & D). { intros; apply Hl; now right. }
        exists st, l'. split; [reflexivity|]. split; [|split].
        * intros m. rewrite A. split; intros (b' & X & Y).
          -- exists b'. split; [right; tauto|tauto].
          -- destruct X as [X|X]; [|eauto]. injection X as <- <-. exfalso. assert (false = true) by (apply Hc; auto). discriminate.
        * intros S. inversion S; auto.
        * rewrite D, changed_lor, Ec. now rewrite Bool.orb_false_r. }
  destruct (L new 0 [] (fun _ _ H => H)) as (st & l & E & A & B & D). exists st, l. split; [exact E|]. split; auto. split; [apply B; apply Hn|].
  rewrite D. simpl. destruct l; split; congruence.
Qed.
Print Assumptions C63_compare_model_partial.

(** ** What the fit scanner does about it *)
Definition must_rebuild (old new : list (Z * src)) (templates : list Z) : Prop :=
  (exists n b, In (n, b) new /\ ~ In n (map fst old) /\ p_free (s_norm b) = true) \/
  (exists n a b, ~ In n templates /\ In (n, a) old /\ In (n, b) new /\
                 p_free (s_norm a) = false /\ p_free (s_norm b) = true).
Definition fixed_outdated (old new : list (Z * src)) (templates : list Z) : Prop :=
  (exists n b, In (n, b) new /\ ~ In n (map fst old) /\ p_free (s_norm b) = false) \/
  (exists n a, ~ In n templates /\ In (n, a) old /\ gone_or_differs new n a).
Definition some_template (old new : list (Z * src)) (templates : list Z) (P : src -> src -> Prop) : Prop :=
  exists n a b, In n templates /\ In (n, a) old /\ In (n, b) new /\ P a b.

Lemma exists_latched (c : Z -> N) (F : N -> bool) (old : list (Z * src)) (p : Z -> bool) :
  existsb F (map c (filter p (map fst old))) = true <-> exists n a, p n = true /\ In (n, a) old /\ F (c n) = true.
Proof.
  rewrite existsb_exists. split.
  - intros (x & H & E). apply in_map_iff in H. destruct H as (n & <- & H). apply filter_In in H. destruct H as [H1 H2]. apply keys_in in H1. destruct H1 as (a & H1). eauto.
  - intros (n & a & H1 & H2 & H3). exists (c n). split; auto. apply in_map. apply filter_In. split; auto. apply keys_in. eauto.
Qed.
Lemma nonempty {A} (l : list A) : Nat.ltb 0 (length l) = true <-> exists x, In x l.
Proof. destruct l as [|x l]; simpl; split; try discriminate; try reflexivity; [intros (x & [])|intros _; exists x; now left]. Qed.

(** The cache is rebuilt exactly when a free source appeared or a source outside the templates was freed.
    Otherwise: the fixed part is recomputed exactly when a fixed source appeared or a source outside the templates
    disappeared or differs; templates are recomputed exactly when a shape parameter of a template source moved;
    the priors exactly when that of a template's normalisation did; and the model is refactored when any of these
    (but the priors), a template's normalisation value or its free flag changed.  Missing: template sources
    that disappeared or changed type (see below). *)
Theorem C63_action_partial : forall old new templates, good_model old -> good_model new ->
  (forall n a, In n templates -> In (n, a) old -> exists b, In (n, b) new /\ same_spectral_type a b /\ same_spatial_type a b) ->
  exists act, find_action_needed (latch_model old) new templates = Ok act /\
    (must_rebuild old new templates -> act = Rebuild) /\
    (~ must_rebuild old new templates ->
       flag act Rebuild = false /\
       (flag act Update_Fixed = true <-> fixed_outdated old new templates) /\
       (flag act Update_Free = true <->
          some_template old new templates (fun a b => some_moved (shape_pars a) (shape_pars b) \/ some_moved (space_pars a) (space_pars b))) /\
       (flag act Remake_Prior = true <->
          some_template old new templates (fun a b => prior_moved (p_prior (s_norm a)) (p_prior (s_norm b)))) /\
       (flag act Refactor = true <->
          fixed_outdated old new templates \/
          some_template old new templates (fun a b => some_moved (shape_pars a) (shape_pars b) \/ some_moved (space_pars a) (space_pars b)) \/
          some_template old new templates (fun a b => value_moved (p_val (s_norm a)) (p_val (s_norm b)) \/ p_free (s_norm a) <> p_free (s_norm b)))).
Proof.
  intros old new T Ho Hn HT. destruct (statuses old new Ho Hn) as (c & HC).
  assert (HC' : forall n, In n (map fst (latch_model old)) -> compare_source (latch_model old) n (mfind n new) = Ok (c n)).
  { intros n H. rewrite keys_latched in H by auto. apply keys_in in H. destruct H as (a & H). apply (HC n a H). }
  unfold find_action_needed, compare_latched. rewrite (loop_run _ _ T c (latch_model old) _ HC'). cbn [changed_latched changed_unlatched latched_status unlatched_status app].
  rewrite keys_latched by auto.
  rewrite (flag_fold changed), (flag_fold source_freed), (flag_fold model_changed), (flag_fold norm_status_changed), (flag_fold norm_value_changed), (flag_fold norm_prior_changed)
    by (intros; apply flag_lor || apply changed_lor).
  change (changed 0) with false. change (source_freed 0) with false. change (model_changed 0) with false. change (norm_status_changed 0) with false. change (norm_value_changed 0) with false. change (norm_prior_changed 0) with false. cbn [orb].
  set (nf := Nat.ltb 0 (length (new_sources (latch_model old) new true))).
  set (nx := Nat.ltb 0 (length (new_sources (latch_model old) new false))).
  set (uf := existsb source_freed _). set (uc := existsb changed _). set (mc := existsb model_changed _).
  set (ns := existsb norm_status_changed _). set (nv := existsb norm_value_changed _). set (np := existsb norm_prior_changed _).
  assert (R : nf || uf = true <-> must_rebuild old new T).
  { unfold must_rebuild, nf, uf. rewrite Bool.orb_true_iff, nonempty, (exists_latched c source_freed old (fun n => negb (is_in T n))). split.
    - intros [(n & H)|(n & a & H1 & H2 & H3)].
      + left. apply new_spec in H; auto. destruct H as (b & H). eauto.
      + right. destruct (HC n a H2) as (_ & _ & X & _). apply X in H3. destruct H3 as (b & B1 & B2 & B3). exists n, a, b. split; auto.
        rewrite <- is_in_spec. apply Bool.negb_true_iff in H1. congruence.
    - intros [(n & b & H)|(n & a & b & H1 & H2 & H3 & H4)].
      + left. exists n. apply new_spec; eauto.
      + right. exists n, a. split; [|split; auto].
        * rewrite <- is_in_spec in H1. apply Bool.negb_true_iff. now apply Bool.not_true_is_false.
        * apply (HC n a H2). eauto. }
  assert (FX : nx || uc = true <-> fixed_outdated old new T).
  { unfold fixed_outdated, nx, uc. rewrite Bool.orb_true_iff, nonempty, (exists_latched c changed old (fun n => negb (is_in T n))). split.
    - intros [(n & H)|(n & a & H1 & H2 & H3)].
      + left. apply new_spec in H; auto. destruct H as (b & H). eauto.
      + right. exists n, a. split; [|split; auto].
        * rewrite <- is_in_spec. apply Bool.negb_true_iff in H1. congruence.
        * now apply (HC n a H2).
    - intros [(n & b & H)|(n & a & H1 & H2 & H3)].
      + left. exists n. apply new_spec; eauto.
      + right. exists n, a. split; [|split; auto].
        * rewrite <- is_in_spec in H1. apply Bool.negb_true_iff. now apply Bool.not_true_is_false.
        * now apply (HC n a H2). }
  assert (TP : forall (F : N -> bool) (P : src -> src -> Prop),
     (forall n a b, In n T -> In (n, a) old -> In (n, b) new -> (F (c n) = true <-> P a b)) ->
     existsb F (map c (filter (is_in T) (map fst old))) = true <-> some_template old new T P).
  { intros F P H. rewrite (exists_latched c F old (is_in T)). unfold some_template. split.
    - intros (n & a & H1 & H2 & H3). apply is_in_spec in H1. destruct (HT n a H1 H2) as (b & B1 & B2). exists n, a, b. repeat split; auto. now apply (H n a b).
    - intros (n & a & b & H1 & H2 & H3 & H4). exists n, a. rewrite is_in_spec. repeat split; auto. now apply (H n a b). }
  assert (FL : forall n a b, In n T -> In (n, a) old -> In (n, b) new ->
    (norm_value_changed (c n) = true <-> value_moved (p_val (s_norm a)) (p_val (s_norm b))) /\
    (norm_status_changed (c n) = true <-> p_free (s_norm a) <> p_free (s_norm b)) /\
    (norm_prior_changed (c n) = true <-> prior_moved (p_prior (s_norm a)) (p_prior (s_norm b))) /\
    (model_changed (c n) = true <-> some_moved (shape_pars a) (shape_pars b) \/ some_moved (space_pars a) (space_pars b))).
  { intros n a b H1 H2 H3. destruct (HT n a H1 H2) as (b' & B1 & B2 & B3).
    assert (b' = b). { apply (mfind_iff new n _ Hn) in B1. apply (mfind_iff new n _ Hn) in H3. congruence. } subst b'.
    destruct (C63_flags_partial a b) as (st & E & X1 & X2 & X3 & _ & _ & _ & _ & _ & X4); auto. { apply Ho with n; auto. } { apply Hn with n; auto. }
    destruct (HC n a H2) as (_ & _ & _ & Y). specialize (Y b H3). unfold latched in Y. rewrite E in Y. injection Y as <-. auto. }
  assert (MC : mc = true <-> some_template old new T (fun a b => some_moved (shape_pars a) (shape_pars b) \/ some_moved (space_pars a) (space_pars b))).
  { apply TP. intros n a b H1 H2 H3. now apply (FL n a b). }
  assert (NP : np = true <-> some_template old new T (fun a b => prior_moved (p_prior (s_norm a)) (p_prior (s_norm b)))).
  { apply TP. intros n a b H1 H2 H3. now apply (FL n a b). }
  assert (NV : nv = true <-> some_template old new T (fun a b => value_moved (p_val (s_norm a)) (p_val (s_norm b)))).
  { apply TP. intros n a b H1 H2 H3. now apply (FL n a b). }
  assert (NS : ns = true <-> some_template old new T (fun a b => p_free (s_norm a) <> p_free (s_norm b))).
  { apply TP. intros n a b H1 H2 H3. now apply (FL n a b). }
  assert (NB : some_template old new T (fun a b => value_moved (p_val (s_norm a)) (p_val (s_norm b)) \/ p_free (s_norm a) <> p_free (s_norm b)) <-> nv = true \/ ns = true).
  { rewrite NV, NS. unfold some_template. split.
    - intros (n & a & b & H1 & H2 & H3 & [H4|H4]); [left|right]; exists n, a, b; auto.
    - intros [(n & a & b & H1 & H2 & H3 & H4)|(n & a & b & H1 & H2 & H3 & H4)]; exists n, a, b; auto. }
  exists (if nf || uf then Rebuild else N.lor (N.lor (N.lor (if nx || uc then N.lor Update_Fixed Refactor else 0) (if mc then N.lor Update_Free Refactor else 0)) (if ns || nv then Refactor else 0)) (if np then Remake_Prior else 0)).
  rewrite <- R, NB, <- FX, <- MC, <- NP. clear. clearbody nf nx uf uc mc ns nv np.
  destruct nf, uf.
  1-3: (split; [reflexivity|]; split; [reflexivity|intros H; exfalso; now apply H]).
  cbn [orb]. split; [destruct nx, uc, mc, ns, nv, np; reflexivity|]. split; [discriminate|]. intros _.
  destruct nx, uc, mc, ns, nv, np; (split; [reflexivity|]); repeat split; intros; try reflexivity; try discriminate; try tauto;
    repeat match goal with H : _ \/ _ |- _ => destruct H end; discriminate.
Qed.
Print Assumptions C63_action_partial.

Lemma not_moved p : ~ par_moved p p.
Proof. intros H. apply b_moved_spec in H. now rewrite b_moved_same in H. Qed.
Lemma some_not_moved l : NoDup (map p_name l) -> ~ some_moved l l.
Proof.
  intros H (p & q & A & B & C & D). assert (p = q); [|subst; now apply not_moved in D].
  clear D. induction l as [|x l IH]; simpl in *; [tauto|]. inversion H as [|? ? H1 H2]; subst. destruct A as [->|A], B as [->|B]; auto.
  - exfalso. apply H1. rewrite C. now apply in_map.
  - exfalso. apply H1. rewrite <- C. now apply in_map.
Qed.
Lemma not_differs a : well_named a -> ~ differs a a.
Proof.
  intros H [D|[D|[D|[D|D]]]].
  - apply D. split; [reflexivity|]. intros n. tauto.
  - apply D. split; [reflexivity|]. intros n. tauto.
  - now apply not_moved in D.
  - apply some_not_moved in D; auto. now apply shape_nodup.
  - apply some_not_moved in D; auto. apply H.
Qed.

(** Nothing is reported and nothing is done when nothing was changed. *)
Theorem C63_same : forall m templates, good_model m ->
  (forall n a, In (n, a) m -> compare (latch_source ss_empty a true) a = Ok 0) /\
  compare_model (latch_model m) m (0, []) = Ok (0, []) /\
  find_action_needed (latch_model m) m templates = Ok 0.
Proof.
  intros m T Hm.
  assert (U : forall n a b, In (n, a) m -> In (n, b) m -> a = b). { intros n a b A B. apply (mfind_iff m n _ Hm) in A. apply (mfind_iff m n _ Hm) in B. congruence. }
  assert (Z0 : forall x, changed x = false -> x = 0). { intros x. unfold changed. destruct (N.eqb_spec x 0); [auto|discriminate]. }
  split; [|split].
  - intros n a Ha. assert (W : well_named a) by (apply Hm with n; auto). destruct (C63_changed a a W W) as (st & -> & E & _). f_equal. apply Z0.
    destruct (changed st); auto. exfalso. apply (not_differs a W). now apply E.
  - destruct (C63_compare_model_partial m m Hm Hm) as (st & l & -> & A & _ & B).
    assert (l = []). { destruct l as [|n l]; auto. exfalso. destruct (proj1 (A n) (or_introl eq_refl)) as (b & H1 & [H2|(a & H2 & H3)]).
      - apply H2. apply keys_in. eauto.
      - rewrite (U _ _ _ H2 H1) in H3. apply not_differs in H3; auto. apply Hm with n; auto. }
    subst l. f_equal. f_equal. apply Z0. destruct (changed st); auto. exfalso. now apply B.
  - destruct (C63_report m m T Hm Hm) as (r & nf & nx & E & A1 & A2 & A3 & A4 & _ & _ & _ & _ & A5 & A6).
    assert (G : forall n, ~ exists a, In (n, a) m /\ gone_or_differs m n a).
    { intros n (a & H1 & [H2|(b & H2 & H3)]); [apply H2; apply keys_in; eauto|]. rewrite (U _ _ _ H1 H2) in H3. apply not_differs in H3; auto. apply Hm with n; auto. }
    assert (L0 : forall l : list Z, (forall n, ~ In n l) -> l = []). { intros [|x l] H; auto. exfalso. apply (H x). now left. }
    assert (E1 : changed_latched r = []). { apply L0. intros n H. apply A1 in H. now apply (G n). }
    assert (E2 : changed_unlatched r = []). { apply L0. intros n H. apply A2 in H. now apply (G n). }
    assert (E3 : nf = []). { apply L0. intros n H. apply A3 in H. destruct H as (b & H1 & H2 & _). apply H2. apply keys_in. eauto. }
    assert (E4 : nx = []). { apply L0. intros n H. apply A4 in H. destruct H as (b & H1 & H2 & _). apply H2. apply keys_in. eauto. }
    unfold find_action_needed. rewrite E, E3, E4.
    assert (F1 : latched_status r = 0). { apply Z0. destruct (changed (latched_status r)); auto. exfalso. now apply A5. }
    assert (F2 : unlatched_status r = 0). { apply Z0. destruct (changed (unlatched_status r)); auto. exfalso. now apply A6. }
    rewrite F1, F2. reflexivity.
Qed.
Print Assumptions C63_same.

(** ** Counterexamples *)
Definition a_par n v f : par := {| p_name := n; p_val := v; p_free := f; p_prior := None |}.
(** names: 1 Prefactor, 2 Index, 3 DEC, 4 RA, 5 Radius, 6 Sigma; functions: 7 SpatialDist; types 10, 11 *)
Definition a_src kind norm index dec r : src :=
  {| s_kind := kind; s_norm := norm; s_pars := [norm; a_par 2 index false];
     s_funcs := [(7%Z, [a_par 4 10 false; a_par 3 dec false; a_par r 1 false]); (0%Z, [norm; a_par 2 index false])] |}.
Definition norm1 := a_par 1 5 true.
Lemma moved01 : moved 0 1 = true.
Proof. apply moved_spec. unfold value_moved. rewrite Rminus_0_l, Rabs_Ropp, Rabs_R0, Rabs_R1. lra. Qed.
Lemma moved23 : moved (-2) (-3) = true.
Proof. apply moved_spec. unfold value_moved. replace (-2 - -3)%R with 1%R by lra. rewrite (Rabs_left (-2)), (Rabs_left (-3)), Rabs_R1 by lra. lra. Qed.
Lemma a_src_named kind n index dec r : p_name n = 1%Z -> (4 < r)%Z -> well_named (a_src kind n index dec r).
Proof.
  intros H Hr. unfold well_named, a_src, space_pars, space_funcs. simpl. rewrite H. split.
  - repeat constructor; simpl; intuition discriminate.
  - repeat constructor; simpl; intuition lia.
Qed.
Lemma one_good n s : well_named s -> good_model [(n, s)].
Proof. intros H. split; [repeat constructor|]. intros m t [E|[]]. injection E as <- <-. exact H. Qed.
Ltac run_snap := cbv -[moved IZR Ropp]; rewrite ?moved_same, ?moved01, ?moved23; cbv -[IZR Ropp]; try reflexivity.

(** A disk (DEC, RA, Radius) replaced by a Gaussian (DEC, RA, Sigma) at another place: the change of the
    declination is reported as a change of the value of the normalisation, which is the same. *)
Theorem C63_flags_refuted : exists a b st, well_named a /\ well_named b /\ s_norm a = s_norm b /\
  compare (latch_source ss_empty a true) b = Ok st /\ norm_value_changed st = true /\ spatial_changed st = false.
Proof.
  exists (a_src 10 norm1 (-2) 0 5), (a_src 10 norm1 (-2) 1 6). eexists.
  split; [apply a_src_named; [reflexivity|lia]|]. split; [apply a_src_named; [reflexivity|lia]|]. split; [reflexivity|].
  split; [run_snap|]. split; reflexivity.
Qed.
Print Assumptions C63_flags_refuted.

(** A source that has disappeared is never reported as removed: a free one is reported as a fixed one added, a
    fixed one as a free one added. *)
Theorem C63_removed_refuted : forall old n a, good_model old -> In (n, a) old ->
  exists st, compare_source (latch_model old) n None = Ok st /\
    free_source_removed st = false /\ fixed_source_removed st = false /\
    (fixed_source_added st = true <-> p_free (s_norm a) = true) /\ (free_source_added st = true <-> p_free (s_norm a) = false).
Proof.
  intros old n a Ho Ha. unfold compare_source. rewrite latch_model_map, mfind_map by apply Ho. apply (mfind_iff old n a Ho) in Ha. rewrite Ha. simpl.
  destruct (p_free (s_norm a)); simpl; eexists; (split; [reflexivity|]); repeat split; intros; try reflexivity; discriminate.
Qed.
Print Assumptions C63_removed_refuted.

(** A source that is new is reported as removed and not as added. *)
Theorem C63_added_refuted : forall old n b, good_model old -> ~ In n (map fst old) ->
  exists st, compare_source (latch_model old) n (Some b) = Ok st /\
    free_source_added st = false /\ fixed_source_added st = false /\
    (free_source_removed st = true <-> p_free (s_norm b) = true) /\ (fixed_source_removed st = true <-> p_free (s_norm b) = false).
Proof.
  intros old n b Ho Ha. unfold compare_source. rewrite latch_model_map, mfind_map by apply Ho. apply mfind_out in Ha. rewrite Ha. simpl. unfold source_free.
  destruct (p_free (s_norm b)); simpl; eexists; (split; [reflexivity|]); repeat split; intros; try reflexivity; discriminate.
Qed.
Print Assumptions C63_added_refuted.

(** Comparing with a whole model does not see that sources have disappeared. *)
Theorem C63_compare_model_refuted : exists old, good_model old /\ old <> [] /\
  compare_model (latch_model old) [] (0, []) = Ok (0, []).
Proof.
  exists [(1%Z, a_src 10 norm1 (-2) 0 5)]. split; [apply one_good, a_src_named; [reflexivity|lia]|]. split; [discriminate|]. reflexivity.
Qed.
Print Assumptions C63_compare_model_refuted.

(** The spectrum of a template source is replaced by one of another type: the fit scanner does nothing. *)
Theorem C63_template_type_refuted : exists old new, good_model old /\ good_model new /\
  In (1%Z, a_src 10 norm1 (-2) 0 5) old /\ In (1%Z, a_src 11 norm1 (-2) 0 5) new /\
  find_action_needed (latch_model old) new [1%Z] = Ok 0.
Proof.
  exists [(1%Z, a_src 10 norm1 (-2) 0 5)], [(1%Z, a_src 11 norm1 (-2) 0 5)].
  split; [apply one_good, a_src_named; [reflexivity|lia]|]. split; [apply one_good, a_src_named; [reflexivity|lia]|]. split; [now left|]. split; [now left|].
  assert (E : exists st, compare (latch_source ss_empty (a_src 10 norm1 (-2) 0 5) true) (a_src 11 norm1 (-2) 0 5) = Ok st /\
                st = 98304). { eexists. split; [run_snap|]. reflexivity. }
  destruct E as (st & E & ->). unfold find_action_needed, compare_latched.
  rewrite latch_model_map by (repeat constructor). cbn [map fst snd latched_loop].
  unfold compare_source. cbn [mfind Z.eqb Pos.eqb existsb orb]. unfold latched. rewrite E. reflexivity.
Qed.
Print Assumptions C63_template_type_refuted.

(** A template source is removed from the model: the fit scanner does nothing. *)
Theorem C63_template_removed_refuted : exists old, good_model old /\ In 1%Z (map fst old) /\
  find_action_needed (latch_model old) [] [1%Z] = Ok 0.
Proof.
  exists [(1%Z, a_src 10 norm1 (-2) 0 5)]. split; [apply one_good, a_src_named; [reflexivity|lia]|]. split; [now left|]. run_snap.
Qed.
Print Assumptions C63_template_removed_refuted.

(** A source latched twice by the same object is reported as changed although it is the same. *)
Theorem C63_relatch_refuted : exists a st, well_named a /\
  compare (latch_source (latch_source ss_empty a true) a true) a = Ok st /\ spatial_model_type_changed st = true.
Proof.
  exists (a_src 10 norm1 (-2) 0 5). eexists. split; [apply a_src_named; [reflexivity|lia]|]. split; [run_snap|]. reflexivity.
Qed.
Print Assumptions C63_relatch_refuted.

(** A prior replaced by one of another type with the same parameter names and values is not reported. *)
Theorem C63_prior_type_refuted : exists a b t u l, well_named a /\ well_named b /\ t <> u /\
  p_prior (s_norm a) = Some (t, l) /\ p_prior (s_norm b) = Some (u, l) /\
  compare (latch_source ss_empty a true) b = Ok 0.
Proof.
  set (n := fun t => {| p_name := 1; p_val := 5; p_free := true; p_prior := Some (t, [(20%Z, 1%R); (21%Z, 2%R)]) |}).
  exists (a_src 10 (n 30%Z) (-2) 0 5), (a_src 10 (n 31%Z) (-2) 0 5), 30%Z, 31%Z, [(20%Z, 1%R); (21%Z, 2%R)].
  split; [apply a_src_named; [reflexivity|lia]|]. split; [apply a_src_named; [reflexivity|lia]|]. split; [discriminate|]. split; [reflexivity|]. split; [reflexivity|]. run_snap.
Qed.
Print Assumptions C63_prior_type_refuted.

(** A template whose index moved, a second source outside the templates that is unchanged, and a new fixed
    source: the fixed part and the template are recomputed. *)
Example C63_case :
  let old := [(1%Z, a_src 10 norm1 (-2) 0 5); (2%Z, a_src 11 norm1 (-2) 1 6)] in
  let new := [(1%Z, a_src 10 norm1 (-3) 0 5); (2%Z, a_src 11 norm1 (-2) 1 6); (3%Z, a_src 10 (a_par 1 5 false) (-2) 0 5)] in
  good_model old /\ good_model new /\
  (forall n a, In n [1%Z] -> In (n, a) old -> exists b, In (n, b) new /\ same_spectral_type a b /\ same_spatial_type a b) /\
  ~ must_rebuild old new [1%Z] /\
  find_action_needed (latch_model old) new [1%Z] = Ok (N.lor (N.lor Update_Free Update_Fixed) Refactor).
Proof.
  intros old new.
  assert (G : forall m, (m = old \/ m = new) -> good_model m).
  { intros m Hm. split.
    - destruct Hm as [->| ->]; repeat constructor.
    - intros n s Hs. destruct Hm as [->| ->]; simpl in Hs; repeat (destruct Hs as [Hs|Hs]; [injection Hs as <- <-; apply a_src_named; [reflexivity|lia]|]); destruct Hs. }
  split; [now apply G; left|]. split; [now apply G; right|]. split; [|split].
  - intros n a [<-|[]] [H|[H|[]]]; [|discriminate]. injection H as <-. eexists. split; [now left|]. split; [split; [reflexivity|]|split; [reflexivity|]]; intros n; simpl; tauto.
  - intros [(n & b & H1 & H2 & H3)|(n & a & b & H1 & H2 & H3 & H4 & H5)].
    + simpl in H1, H2. destruct H1 as [H1|[H1|[H1|[]]]]; injection H1 as <- <-; try discriminate; apply H2; auto.
    + simpl in H2. destruct H2 as [H2|[H2|[]]]; injection H2 as <- <-; discriminate.
  - run_snap.
Qed.

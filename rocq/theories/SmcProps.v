(** C41: the source map cache owns its maps. C56: the map of a source is the map of that source. *)
From Coq Require Import String List Bool PeanoNat Lia.
From Verif Require Import Base SmcModel SmcSpec SmcProofs.
Import ListNotations.
Local Open Scope list_scope.

Section Props.
Variable A : Type.
Implicit Types s : state A.

Lemma run_inv nc : forall ops s own, length (caches s) = nc -> Inv A s own -> throughout (fun _ own o => polite nc own o /\ buildable o /\ rebuilt o) s own ops ->
  let '(s', own', rs) := run s own ops in length (caches s') = nc /\ Inv A s' own' /\ Forall (fun r => r <> UB) rs.
Proof.
  induction ops as [|o ops IH]; intros s own L I T; simpl; [auto|]. destruct T as ((P & B & R) & T). subst nc. pose proof (step_fine A s own o I P B R) as (S1 & S2 & S3).
  destruct (exec1 s o) as (s1, r). simpl in *. specialize (IH s1 _ S1 S3 T).
  destruct (run s1 (owned_after own o r) ops) as ((s2, own2), rs). destruct IH as (I1 & I2 & I3). repeat split; auto; apply I2.
Qed.

Lemma inv_facts s own : Inv A s own -> NoDup (places s own) /\ (forall p, live s p = true <-> In p (places s own)) /\ (forall c, NoDup (map fst (cache s c))).
Proof.
  intros (I & F). split; [|split].
  - apply (NoDup_count_occ Nat.eq_dec). intros p. specialize (I p). unfold one_place in I. destruct (live s p); lia.
  - intros p. specialize (I p). unfold one_place in I. rewrite (count_occ_In Nat.eq_dec). destruct (live s p); split; intros; try lia; try discriminate; auto.
  - intros c. apply (cache_good A s c F).
Qed.
End Props.

(** However maps are asked for, loaded, rebuilt, put into caches, taken out, moved and deleted by a program that only handles maps of its own:
    no call uses or frees a map that is gone or absent, each map that exists is in exactly one place, and nothing else is in any place.
    So nothing is freed twice, nothing is lost, and destroying the caches frees all but what the program owns.
    Not covered: point sources without a map, and rebuilding that throws (the two refutations below). *)
Theorem C41_history_partial : forall A nc (ops : list (op A)), throughout (fun _ own o => polite nc own o /\ buildable o /\ rebuilt o) (start nc) [] ops ->
  let '(s, own, results) := run (start nc) [] ops in
  Forall (fun r => r <> UB) results /\ NoDup (places s own) /\ (forall p, live s p = true <-> In p (places s own)) /\ (forall c, NoDup (map fst (cache s c))).
Proof.
  intros A nc ops T. pose proof (run_inv A nc ops (start nc) [] ltac:(apply repeat_length) (start_inv A nc) T) as H. destruct (run (start nc) [] ops) as ((s, own), rs).
  destruct H as (_ & I & F). split; auto. now apply inv_facts.
Qed.
Print Assumptions C41_history_partial.

(** getSourceMap returns the same map until a call parts the name from it. *)
Lemma cache_upd A (s : state A) c c' t : cache (with_cache s c' t) c = if Nat.eqb c' c then if Nat.ltb c (length (caches s)) then t else [] else cache s c.
Proof.
  unfold cache, with_cache. simpl. destruct (Nat.eqb_spec c' c) as [->|N].
  - destruct (Nat.ltb_spec c (length (caches s))). now rewrite nth_upd_eq. now rewrite nth_overflow by (rewrite upd_length; auto).
  - now rewrite nth_upd_neq by auto.
Qed.
Lemma keep_set A (s : state A) c n c' n' p q : mfind n (cache s c) = Some p -> (c' = c -> n' <> n) -> mfind n (cache (with_cache s c' (mset n' q (cache s c'))) c) = Some p.
Proof.
  intros F N. rewrite cache_upd. destruct (Nat.eqb_spec c' c) as [->|]; auto. destruct (Nat.ltb_spec c (length (caches s))) as [L|L].
  - rewrite mfind_mset_neq; auto.
  - unfold cache in F. rewrite nth_overflow in F by auto. discriminate.
Qed.
Lemma keep_rem A (s : state A) c n c' n' p : mfind n (cache s c) = Some p -> (c' = c -> n' <> n) -> mfind n (cache (with_cache s c' (mrem n' (cache s c'))) c) = Some p.
Proof.
  intros F N. rewrite cache_upd. destruct (Nat.eqb_spec c' c) as [->|]; auto. destruct (Nat.ltb_spec c (length (caches s))) as [L|L].
  - rewrite mfind_mrem_neq; auto.
  - unfold cache in F. rewrite nth_overflow in F by auto. discriminate.
Qed.
Lemma keep_get A (s : state A) c n p c' src e : mfind n (cache s c) = Some p -> mfind n (cache (fst (get s c' src e)) c) = Some p /\ ((c' = c /\ sname src = n) -> fst (get s c' src e) = s).
Proof.
  intros F. unfold get. destruct (mfind (sname src) (cache s c')) as [[q|]|] eqn:Fq.
  - destruct (live s q); auto.
  - auto.
  - assert (NE : c' = c -> sname src <> n) by (intros -> E; congruence). split; [|intros (-> & E); exfalso; congruence].
    assert (B : forall a, mfind n (cache (fst (if makes e then let (s', p) := alloc s a in (with_cache s' c' (mset (sname src) (Some p) (cache s' c')), Ok (Some p)) else (s, Throw))) c) = Some p).
    { intros a. destruct (makes e); auto. apply keep_set; auto. }
    destruct (in_file e); auto. destruct (skind src); auto. destruct (points e); auto. apply keep_set; auto.
Qed.
Lemma keep_insert A (s : state A) c n p c' n' q : mfind n (cache s c) = Some p -> mfind n (cache (fst (insert s c' n' q)) c) = Some p.
Proof.
  intros F. unfold insert. destruct (mfind n' (cache s c')) as [[q'|]|] eqn:Fq; [destruct (Nat.eqb q' q); exact F|exact F|]. apply keep_set; auto. intros -> ->. congruence.
Qed.
Lemma keep_step A (s : state A) c n p o : mfind n (cache s c) = Some (Some p) -> ~ parts c n o -> mfind n (cache (fst (exec1 s o)) c) = Some (Some p).
Proof.
  intros F P. destruct o as [c' src e|c' src rec e|c' src keep e|c' n'|c' n' q|c' n' q|c' n'|a|q|c']; simpl in P |- *.
  - now apply keep_get.
  - unfold load. destruct (_ || _)%bool; [|exact F]. destruct rec.
    + destruct (free s _) as [s'| |] eqn:Fr; [|exact F..]. assert (Ca : cache s' c = cache s c) by (apply cache_caches; eapply free_caches; eauto). rewrite <- Ca in F.
      destruct (makes e); [|exact F]. simpl. apply (keep_set A (fst (alloc s' (sky src)))); [exact F|]. intros -> E. tauto.
    + pose proof (keep_get A s c n _ c' src e F) as (K & _). destruct (get s c' src e) as (s', r). exact K.
  - unfold compute. pose proof (keep_get A s c n _ c' src e F) as (K & K'). destruct (get s c' src e) as (s', r). simpl in K, K'.
    destruct r as [[q|]| |]; try exact K. destruct (live s' q); [|exact K].
    destruct (negb _ && negb keep) eqn:En; [|exact K]. apply andb_prop in En. destruct En as (En & _).
    assert (NE : c' = c -> sname src <> n). { intros -> E. rewrite E, F in En. discriminate. }
    unfold erase. destruct (free s' _) as [s1| |] eqn:Fr; [|exact K..]. assert (Ca : cache s1 c = cache s' c) by (apply cache_caches; eapply free_caches; eauto). rewrite <- Ca in K.
    simpl. now apply keep_rem.
  - unfold erase. destruct (free s _) as [s1| |] eqn:Fr; [|exact F..]. assert (Ca : cache s1 c = cache s c) by (apply cache_caches; eapply free_caches; eauto). rewrite <- Ca in F.
    simpl. apply keep_rem; auto; intros -> E; tauto.
  - pose proof (keep_insert A s c n _ c' n' q F) as X. destruct (insert s c' n' q). exact X.
  - unfold replace, erase. destruct (free s _) as [s1| |] eqn:Fr; [|exact F..]. assert (Ca : cache s1 c = cache s c) by (apply cache_caches; eapply free_caches; eauto). rewrite <- Ca in F.
    assert (NE : c' = c -> n' <> n) by (intros -> E; tauto). pose proof (keep_rem A s1 c n c' n' _ F NE) as K.
    apply keep_insert with (c' := c') (n' := n') (q := q) in K. destruct (insert _ c' n' q). exact K.
  - unfold remove. destruct (mfind n' (cache s c')); [|exact F]. apply keep_rem; auto; intros -> E; tauto.
  - exact F.
  - destruct (free s (Some q)) as [s1| |] eqn:Fr; simpl in Fr; simpl; destruct (live s q); try discriminate; try exact F.
  - unfold destroy. destruct (free_all s (cache s c')) as [s1| |] eqn:Fr; [|exact F..]. simpl. rewrite cache_upd. destruct (Nat.eqb_spec c' c); [tauto|].
    assert (Ca : forall t (s s1 : state A), free_all s t = Ok s1 -> caches s1 = caches s).
    { clear. intros t. induction t as [|[m q] t IH]; intros s s1 H; simpl in H. injection H as <-. reflexivity.
      destruct (free s q) as [s2| |] eqn:Fr; try discriminate. simpl in H. apply IH in H. rewrite H. eapply free_caches; eauto. }
    rewrite (cache_caches A _ _ _ (Ca _ _ _ Fr)). exact F.
Qed.
Lemma throughout_app A (ok : state A -> list nat -> op A -> Prop) a b s own : throughout ok s own (a ++ b) <->
  throughout ok s own a /\ throughout ok (fst (fst (run s own a))) (snd (fst (run s own a))) b.
Proof.
  revert s own. induction a as [|o a IH]; intros s own; simpl; [tauto|]. rewrite IH. destruct (exec1 s o) as (s1, r). simpl.
  destruct (run s1 (owned_after own o r) a) as ((s2, own2), rs). simpl. tauto.
Qed.
Theorem C41_same_map : forall A nc (before between : list (op A)) c src e p e' src', c < nc -> sname src' = sname src ->
  throughout (fun _ own o => polite nc own o /\ buildable o /\ rebuilt o) (start nc) [] (before ++ Get c src e :: between) ->
  Forall (fun o => ~ parts c (sname src) o) between ->
  let s1 := fst (fst (run (start nc) [] before)) in
  snd (get s1 c src e) = Ok (Some p) ->
  snd (get (fst (fst (run (start nc) [] (before ++ Get c src e :: between)))) c src' e') = Ok (Some p).
Proof.
  intros A nc before between c src e p e' src' Hc En T K s1 G. subst s1.
  pose proof (run_inv A nc _ (start nc) [] ltac:(apply repeat_length) (start_inv A nc) T) as I.
  assert (E : exists s2, run (start nc) [] (before ++ Get c src e :: between) = s2) by eauto. destruct E as (((s2, own2), rs2) & E). rewrite E in I |- *. destruct I as (L & I & _). simpl fst.
  enough (F : mfind (sname src') (cache s2 c) = Some (Some p)).
  { unfold get. rewrite F. rewrite (cached_live A s2 own2 c _ p ltac:(lia) I F). reflexivity. }
  assert (App : forall (a b : list (op A)) s own, fst (run s own (a ++ b)) = fst (run (fst (fst (run s own a))) (snd (fst (run s own a))) b)).
  { clear. induction a as [|o a IH]; intros b s own; simpl; auto. destruct (exec1 s o) as (s1, r). specialize (IH b s1 (owned_after own o r)).
    destruct (run s1 (owned_after own o r) (a ++ b)) as ((x, y), z). destruct (run s1 (owned_after own o r) a) as ((x', y'), z'). simpl in *. rewrite IH. reflexivity. }
  apply throughout_app in T. destruct T as (T1 & T2).
  pose proof (run_inv A nc _ (start nc) [] ltac:(apply repeat_length) (start_inv A nc) T1) as I1. pose proof (App before (Get c src e :: between) (start nc) []) as E'.
  rewrite E in E'. destruct (run (start nc) [] before) as ((s1, own1), rs1). simpl fst in *. simpl snd in *. destruct I1 as (L1 & I1 & _).
  simpl in T2. destruct T2 as ((P & B & R) & T2).
  pose proof (get_fine A s1 own1 c src e ltac:(lia) I1 B) as (_ & _ & _ & G4). destruct (G4 _ G) as (p' & Ep & F). injection Ep as <-. rewrite En.
  clear - F K E'. simpl in E'. destruct (get s1 c src e) as (s3, r3). simpl in F.
  assert (X : forall ops (s : state A) own, mfind (sname src) (cache s c) = Some (Some p) -> Forall (fun o => ~ parts c (sname src) o) ops -> mfind (sname src) (cache (fst (fst (run s own ops))) c) = Some (Some p)).
  { clear. induction ops as [|o ops IH]; intros s own F K; simpl; auto. inversion K; subst. pose proof (keep_step A s c (sname src) p o F H1) as F'. destruct (exec1 s o) as (s1, r).
    specialize (IH s1 (owned_after own o r) F' H2). destruct (run s1 (owned_after own o r) ops) as ((x, y), z). exact IH. }
  specialize (X between s3 (owned_after own1 (Get c src e) r3) F K). destruct (run s3 _ between) as ((x, y), z). simpl in E'. injection E' as -> ->. exact X.
Qed.
Print Assumptions C41_same_map.

(** A second map for a name is refused, and so is taking out what is not there; nothing changes. Erasing an unknown name does nothing either. *)
Theorem C41_errors : forall A (s : state A) c n p,
  (forall q, mfind n (cache s c) = Some q -> q <> Some p -> insert s c n p = (s, Throw)) /\
  (mfind n (cache s c) = Some (Some p) -> insert s c n p = (s, Ok tt)) /\
  (mfind n (cache s c) = None -> remove s c n = (s, Throw)) /\
  (mfind n (cache s c) = None -> snd (erase s c n) = Ok tt /\ heap (fst (erase s c n)) = heap s /\ forall c' m, mfind m (cache (fst (erase s c n)) c') = mfind m (cache s c')).
Proof.
  intros A s c n p. unfold insert, remove, erase. repeat split.
  - intros q -> N. destruct q as [q|]; auto. destruct (Nat.eqb_spec q p); congruence.
  - intros ->. now rewrite Nat.eqb_refl.
  - now intros ->.
  - now rewrite H.
  - now rewrite H.
  - intros c' m. rewrite H. simpl. rewrite cache_upd. destruct (Nat.eqb_spec c c') as [<-|]; auto. destruct (Nat.ltb_spec c (length (caches s))).
    + destruct (String.eqb_spec n m) as [<-|N]. now rewrite mfind_mrem_eq. now rewrite mfind_mrem_neq.
    + unfold cache. now rewrite nth_overflow by auto.
Qed.
Print Assumptions C41_errors.

(** Without computed point sources, asking for the map of a point source that is not in the file gives a null pointer the first time, and uses it the second. *)
Theorem C41_null_refuted : forall A (a : A) n, let src := {| sname := n; skind := Point; sky := a |} in let e := {| in_file := None; points := false; makes := true |} in
  let '(_, _, results) := run (start 1) [] [Get 0 src e; Get 0 src e] in results = [Ok None; UB].
Proof. intros A a n. cbn -[String.eqb]. unfold get. cbn -[String.eqb]. rewrite String.eqb_refl. reflexivity. Qed.
Print Assumptions C41_null_refuted.

(** If rebuilding a map throws, the freed map stays in the cache: the next use, or destroying the cache, is undefined. *)
Theorem C41_rebuild_refuted : forall A (a : A) n, let src := {| sname := n; skind := Diffuse; sky := a |} in
  let good := {| in_file := None; points := true; makes := true |} in let bad := {| in_file := None; points := true; makes := false |} in
  (let '(_, _, results) := run (start 1) [] [Get 0 src good; Load 0 src true bad; Get 0 src good] in results = [Ok (Some 0); Throw; UB]) /\
  (let '(_, _, results) := run (start 1) [] [Get 0 src good; Load 0 src true bad; Destroy 0] in results = [Ok (Some 0); Throw; UB]).
Proof.
  intros A a n. split.
  - cbn -[String.eqb load]. unfold load. cbn -[String.eqb]. rewrite !String.eqb_refl. cbn -[String.eqb get]. unfold get. cbn -[String.eqb]. rewrite !String.eqb_refl. reflexivity.
  - cbn -[String.eqb load destroy]. unfold load. cbn -[String.eqb destroy]. rewrite !String.eqb_refl. reflexivity.
Qed.
Print Assumptions C41_rebuild_refuted.

Example C41_case : let a := {| sname := "a"; skind := Diffuse; sky := 7 |} in let e := {| in_file := None; points := true; makes := true |} in
  let ops := [Get 0 a e; Remove 0 "a"; Insert 1 "b" 0; Compute 0 a false e; Load 1 {| sname := "b"; skind := Point; sky := 8 |} true e; Erase 0 "zz"; Create 5; Delete 3; Destroy 1] in
  throughout (fun _ own o => polite 2 own o /\ buildable o /\ rebuilt o) (start 2) [] ops /\
  snd (run (start 2) [] ops) = [Ok (Some 0); Ok (Some 0); Ok None; Ok None; Ok None; Ok None; Ok (Some 3); Ok None; Ok None].
Proof. simpl. unfold has_map_to_build. simpl. repeat split; auto; right; right; reflexivity. Qed.

(** ** C56 *)
(** A source whose map was just rebuilt gets the map of its place. *)
Theorem C56_rebuilt : forall A (s : state A) c src e e' s1, c < length (caches s) -> load s c src true e = (s1, Ok tt) -> skind src = Diffuse \/ points e = true ->
  exists p, get s1 c src e' = (s1, Ok (Some p)) /\ shows s1 p (sky src).
Proof.
  intros A s c src e e' s1 Hc L B. unfold load in L.
  assert (Eb : ((match skind src with Diffuse => true | _ => false end) || points e)%bool = true) by (destruct B as [->| ->]; auto; apply orb_true_r). rewrite Eb in L.
  destruct (free s _) as [s'| |] eqn:Fr; try discriminate. assert (Ca : caches s' = caches s) by (eapply free_caches; eauto).
  destruct (makes e); [|discriminate]. simpl in L. injection L as <-. exists (length (heap s')).
  assert (F : mfind (sname src) (cache (with_cache {| heap := heap s' ++ [Some (sky src)]; caches := caches s' |} c (mset (sname src) (Some (length (heap s'))) (cache {| heap := heap s' ++ [Some (sky src)]; caches := caches s' |} c))) c) = Some (Some (length (heap s')))).
  { rewrite cache_upd, Nat.eqb_refl. simpl caches. rewrite Ca. destruct (Nat.ltb_spec c (length (caches s))); [|lia]. apply mfind_mset_eq. }
  assert (N : nth_error (heap s' ++ [Some (sky src)]) (length (heap s')) = Some (Some (sky src))) by (rewrite nth_error_app2, Nat.sub_diag by lia; reflexivity).
  unfold get. rewrite F. unfold live. simpl heap. rewrite N. split; [reflexivity|]. exact N.
Qed.
Print Assumptions C56_rebuilt.

Section Place.
Variable A : Type.
Variable pos : string -> A.
Implicit Types s : state A.
Definition right s : Prop := forall c n p a, mfind n (cache s c) = Some (Some p) -> nth_error (heap s) p = Some (Some a) -> a = pos n.

Lemma heap_free s q s' p a : free s q = Ok s' -> nth_error (heap s') p = Some (Some a) -> nth_error (heap s) p = Some (Some a).
Proof.
  destruct q as [q|]; simpl; [|intros E; injection E as <-; auto]. destruct (live s q); [|discriminate]. intros E; injection E as <-. simpl.
  destruct (Nat.eq_dec q p) as [->|N]; [|now rewrite nth_error_upd_neq by auto]. destruct (Nat.lt_ge_cases p (length (heap s))).
  - rewrite nth_error_upd_eq by auto. discriminate.
  - rewrite (proj2 (nth_error_None _ _)) by (rewrite upd_length; auto). discriminate.
Qed.
Lemma right_free s q s' : right s -> free s q = Ok s' -> right s'.
Proof.
  intros H Fr c n p a F N. apply (H c n p a). rewrite <- (cache_caches A s s' c) by (eapply free_caches; eauto). exact F. eapply heap_free; eauto.
Qed.
Lemma right_rem s c n : right s -> right (with_cache s c (mrem n (cache s c))).
Proof.
  intros H c' m p a F N. rewrite cache_upd in F. destruct (Nat.eqb_spec c c') as [<-|]; [|eapply H; eauto]. destruct (Nat.ltb c (length (caches s))); [|discriminate].
  destruct (String.eqb_spec n m) as [<-|D]. rewrite mfind_mrem_eq in F. discriminate. rewrite mfind_mrem_neq in F by auto. eapply H; eauto.
Qed.
Lemma right_nil s c : right s -> right (with_cache s c []).
Proof.
  intros H c' m p a F N. rewrite cache_upd in F. destruct (Nat.eqb_spec c c') as [<-|]; [|eapply H; eauto]. destruct (Nat.ltb c (length (caches s))); discriminate.
Qed.
Lemma right_set s c n q : right s -> (forall p a, q = Some p -> nth_error (heap s) p = Some (Some a) -> a = pos n) -> right (with_cache s c (mset n q (cache s c))).
Proof.
  intros H Q c' m p a F N. rewrite cache_upd in F. destruct (Nat.eqb_spec c c') as [<-|]; [|eapply H; eauto]. destruct (Nat.ltb c (length (caches s))); [|discriminate].
  destruct (String.eqb_spec n m) as [<-|D]. rewrite mfind_mset_eq in F. injection F as ->. eapply Q; eauto. rewrite mfind_mset_neq in F by auto. eapply H; eauto.
Qed.
Lemma right_build s c n b : right s -> (forall c n p, mfind n (cache s c) = Some (Some p) -> p < length (heap s)) -> b = pos n ->
  right (with_cache (fst (alloc s b)) c (mset n (Some (snd (alloc s b))) (cache (fst (alloc s b)) c))).
Proof.
  intros H W E. apply right_set.
  - intros c' m p a F N. simpl in N. pose proof (W _ _ _ F). rewrite nth_error_app1 in N by auto. eapply H; eauto.
  - intros p a Ep N. simpl in *. injection Ep as <-. rewrite nth_error_app2, Nat.sub_diag in N by lia. simpl in N. congruence.
Qed.
Lemma right_get s own c src e : Inv A s own -> right s -> at_place pos src e -> right (fst (get s c src e)).
Proof.
  intros I H (P1 & P2). assert (W : forall c n p, mfind n (cache s c) = Some (Some p) -> p < length (heap s)).
  { intros c' n p F. assert (Hc : c' < length (caches s)). { destruct (Nat.lt_ge_cases c' (length (caches s))); auto. unfold cache in F. rewrite nth_overflow in F by auto. discriminate. }
    pose proof (cached_live A s own c' n p Hc I F) as L. unfold live in L. apply nth_error_Some. destruct (nth_error (heap s) p); congruence. }
  unfold get. destruct (mfind (sname src) (cache s c)) as [[q|]|] eqn:Fq; [destruct (live s q); exact H|exact H|].
  assert (B : forall a, a = pos (sname src) -> right (fst (if makes e then let (s', p) := alloc s a in (with_cache s' c (mset (sname src) (Some p) (cache s' c)), Ok (Some p)) else (s, Throw)))).
  { intros a E. destruct (makes e); [|exact H]. now apply right_build. }
  destruct (in_file e) as [a|]; [apply B; auto|]. destruct (skind src); try (apply B; assumption); [|exact H]. destruct (points e); [apply B; assumption|].
  apply right_set; auto. discriminate.
Qed.
Lemma right_erase s c n : right s -> right (fst (erase s c n)).
Proof. intros H. unfold erase. destruct (free s _) as [s'| |] eqn:Fr; try exact H. apply right_rem. eapply right_free; eauto. Qed.
Lemma right_insert s c n p : right s -> (forall a, nth_error (heap s) p = Some (Some a) -> a = pos n) -> right (fst (insert s c n p)).
Proof.
  intros H Q. unfold insert. destruct (mfind n (cache s c)) as [[q|]|]; [destruct (Nat.eqb q p); exact H|exact H|]. apply right_set; auto.
  intros p' a E. injection E as <-. auto.
Qed.
Lemma right_step s own o : Inv A s own -> polite (length (caches s)) own o -> buildable o -> rebuilt o -> right s -> unmoved pos s o -> right (fst (exec1 s o)).
Proof.
  intros I P B R H U. destruct o as [c src e|c src rec e|c src keep e|c n|c n p|c n p|c n|a|p|c]; simpl in P, U |- *.
  - eapply right_get; eauto.
  - unfold load. destruct (_ || _)%bool; [|exact H]. destruct rec.
    + destruct (free_entry_ok A s own c (sname src) P I) as (s' & Fr). destruct (inv_free_entry A s own c (sname src) s' P I Fr) as (Ca & I'). rewrite Fr. simpl in R. rewrite R.
      pose proof (right_free _ _ _ H Fr) as H'. simpl. destruct U as (U1 & _).
      assert (W : forall c' n p, mfind n (cache s' c') = Some (Some p) -> p < length (heap s')).
      { intros c' n p F. rewrite (cache_caches A _ _ _ Ca) in F. assert (Hc : c' < length (caches s)). { destruct (Nat.lt_ge_cases c' (length (caches s))); auto. unfold cache in F. rewrite nth_overflow in F by auto. discriminate. }
        pose proof (cached_live A s own c' n p Hc I F) as L. unfold live in L.
        assert (E : length (heap s') = length (heap s)). { destruct (mfind (sname src) (cache s c)) as [[q|]|]; simpl in Fr; [destruct (live s q); [|discriminate]| |]; injection Fr as <-; simpl; auto. apply upd_length. }
        rewrite E. apply nth_error_Some. destruct (nth_error (heap s) p); congruence. }
      apply (right_build s' c (sname src) (sky src) H' W U1).
    + pose proof (right_get s own c src e I H U) as Q. destruct (get s c src e) as (s', r). exact Q.
  - unfold compute. pose proof (right_get s own c src e I H U) as Q. destruct (get s c src e) as (s', r). destruct r as [[q|]| |]; try exact Q. destruct (live s' q); [|exact Q].
    destruct (negb _ && negb keep); [|exact Q]. pose proof (right_erase s' c (sname src) Q) as X. destruct (erase s' c (sname src)). exact X.
  - pose proof (right_erase s c n H) as X. destruct (erase s c n). exact X.
  - assert (X : right (fst (insert s c n p))) by (apply right_insert; auto; intros a N; unfold shows in U; congruence). destruct (insert s c n p). exact X.
  - unfold replace. pose proof (right_erase s c n H) as X. destruct P as (Hc & Hp). unfold erase in *. destruct (free s _) as [s'| |] eqn:Fr; try exact H. simpl in X |- *.
    assert (Y : right (fst (insert (with_cache s' c (mrem n (cache s' c))) c n p))).
    { apply right_insert; auto. simpl. intros a N. apply (heap_free s _ s' p a Fr) in N. unfold shows in U. congruence. }
    destruct (insert _ c n p). exact Y.
  - unfold remove. destruct (mfind n (cache s c)); [|exact H]. simpl. now apply right_rem.
  - intros c n p b F N. simpl in N. change (cache _ c) with (cache s c) in F.
    assert (Hc : c < length (caches s)). { destruct (Nat.lt_ge_cases c (length (caches s))); auto. unfold cache in F. rewrite nth_overflow in F by auto. discriminate. }
    pose proof (cached_live A s own c n p Hc I F) as L. unfold live in L. rewrite nth_error_app1 in N. eapply H; eauto. apply nth_error_Some. destruct (nth_error (heap s) p); congruence.
  - destruct (live s p) eqn:L; [|exact H]. apply (right_free s (Some p)); auto. simpl. now rewrite L.
  - unfold destroy. destruct (free_all s (cache s c)) as [s'| |] eqn:Fr; try exact H. simpl. apply right_nil. clear - H Fr. revert Fr. generalize (cache s c). intros t. revert s s' H.
    induction t as [|[m q] t IH]; intros s s' H Fr; simpl in Fr. injection Fr as <-. exact H. destruct (free s q) as [s2| |] eqn:F2; try discriminate. eapply IH; [|exact Fr]. eapply right_free; eauto.
Qed.
End Place.

(** As long as sources of one name stay where they are, the map returned for a source shows that source ... *)
Theorem C56_history_partial : forall A (pos : string -> A) nc ops, throughout (fun s own o => (polite nc own o /\ buildable o /\ rebuilt o) /\ unmoved pos s o) (start nc) [] ops ->
  forall c src e p s', c < nc -> at_place pos src e -> has_map_to_build src e ->
  get (fst (fst (run (start nc) [] ops))) c src e = (s', Ok (Some p)) -> shows s' p (sky src).
Proof.
  intros A pos nc ops T.
  assert (G : let s := fst (fst (run (start nc) [] ops)) in exists own, length (caches s) = nc /\ Inv A s own /\ right A pos s).
  { assert (X : forall ops s own, length (caches s) = nc -> Inv A s own -> right A pos s -> throughout (fun s own o => (polite nc own o /\ buildable o /\ rebuilt o) /\ unmoved pos s o) s own ops ->
      let s' := fst (fst (run s own ops)) in exists own', length (caches s') = nc /\ Inv A s' own' /\ right A pos s').
    { clear. induction ops as [|o ops IH]; intros s own L I H T; simpl; [eauto|]. destruct T as (((P & B & R) & U) & T). subst nc.
      pose proof (right_step A pos s own o I P B R H U) as H'. pose proof (step_fine A s own o I P B R) as (S1 & S2 & S3).
      destruct (exec1 s o) as (s1, r). simpl in S1, S2, S3, H', T. specialize (IH s1 _ S1 S3 H' T). destruct (run s1 (owned_after own o r) ops) as ((x, y), z). exact IH. }
    apply (X ops (start nc) []); auto. apply repeat_length. apply start_inv.
    intros c n p a F. exfalso. assert (Z : cache (@start A nc) c = []) by (unfold cache, start; simpl; clear; revert c; induction nc; intros [|c]; simpl; auto).
    rewrite Z in F. discriminate. }
  intros c src e p s' Hc P B E. destruct G as (own & L & I & H). set (s := fst (fst (run (start nc) [] ops))) in *.
  pose proof (right_get A pos s own c src e I H P) as H'. pose proof (get_fine A s own c src e ltac:(lia) I B) as (G1 & G2 & G3 & G4). rewrite E in *. simpl in *.
  destruct (G4 _ eq_refl) as (q & Eq & F). injection Eq as <-. pose proof (cached_live A s' own c _ p ltac:(lia) G2 F) as Lp. unfold live in Lp. unfold shows.
  destruct (nth_error (heap s') p) as [[a|]|] eqn:N; try discriminate. rewrite (H' _ _ _ _ F N). destruct P as (-> & _). reflexivity.
Qed.
Print Assumptions C56_history_partial.

(** ... but not for a source that replaces a deleted one of the same name at another place: it gets the old map. *)
Theorem C56_refuted : forall A (a b : A) n, a <> b -> let e := {| in_file := None; points := true; makes := true |} in
  let old := {| sname := n; skind := Point; sky := a |} in let new := {| sname := n; skind := Point; sky := b |} in
  let s1 := fst (addSource (start 1) 0 old e) in let s2 := deleteSource s1 0 n in let '(s3, r) := addSource s2 0 new e in
  r = Ok tt /\ exists p, get s3 0 new e = (s3, Ok (Some p)) /\ shows s3 p a /\ ~ shows s3 p b.
Proof.
  intros A a b n N. simpl. unfold addSource, deleteSource, load. simpl. unfold get at 1. simpl. rewrite String.eqb_refl. simpl. split; [reflexivity|]. exists 0.
  unfold get. simpl. rewrite String.eqb_refl. simpl. repeat split. unfold shows. simpl. congruence.
Qed.
Print Assumptions C56_refuted.

Example C56_case : let e := {| in_file := None; points := true; makes := true |} in let a := {| sname := "a"; skind := Diffuse; sky := 1 |} in
  throughout (fun s own o => (polite 2 own o /\ buildable o /\ rebuilt o) /\ unmoved (fun n => if String.eqb n "a" then 1 else 2) s o) (start 2) []
    [Get 0 a e; Remove 0 "a"; Insert 1 "a" 0; Load 1 a true e; Load 0 {| sname := "b"; skind := Point; sky := 2 |} false e].
Proof. simpl. unfold has_map_to_build, at_place, shows. simpl. repeat split; auto; try (right; right; reflexivity); discriminate. Qed.

(** Proofs about the source map cache. *)
From Coq Require Import String List Bool PeanoNat Lia.
From Verif Require Import Base SmcModel SmcSpec.
Import ListNotations.
Local Open Scope list_scope.
Local Notation cnt := (count_occ Nat.eq_dec).

(** *** The name table *)
Lemma mfind_mrem_eq n t : mfind n (mrem n t) = None.
Proof. induction t as [|[m p] t IH]; simpl; auto. destruct (String.eqb_spec m n); auto. simpl. destruct (String.eqb_spec m n); congruence. Qed.
Lemma mfind_mrem_neq n m t : n <> m -> mfind m (mrem n t) = mfind m t.
Proof.
  intros N. induction t as [|[k p] t IH]; simpl; auto. destruct (String.eqb_spec k n); simpl.
  - subst. destruct (String.eqb_spec n m); congruence.
  - destruct (String.eqb_spec k m); auto.
Qed.
Lemma mfind_mset_eq n p t : mfind n (mset n p t) = Some p.
Proof. simpl. now rewrite String.eqb_refl. Qed.
Lemma mfind_mset_neq n m p t : n <> m -> mfind m (mset n p t) = mfind m t.
Proof. intros N. simpl. destruct (String.eqb_spec n m); [congruence|]. now apply mfind_mrem_neq. Qed.

Definition good (t : table) : Prop := NoDup (map fst t) /\ Forall (fun e => snd e <> None) t.
Lemma in_mrem n t e : In e (mrem n t) -> In e t /\ fst e <> n.
Proof.
  induction t as [|[m p] t IH]; simpl; [tauto|]. destruct (String.eqb_spec m n) as [E|E].
  - intros H. apply IH in H. tauto.
  - intros [<-|H]; simpl. auto. apply IH in H. tauto.
Qed.
Lemma mfind_none n t : ~ In n (map fst t) -> mrem n t = t /\ mfind n t = None.
Proof.
  induction t as [|[m p] t IH]; simpl; auto. intros H. destruct (String.eqb_spec m n) as [E|E]; [tauto|].
  destruct (IH ltac:(tauto)) as (-> & ->). auto.
Qed.
Lemma keys_mrem n t : NoDup (map fst t) -> NoDup (map fst (mrem n t)) /\ ~ In n (map fst (mrem n t)).
Proof.
  intros ND. split.
  - induction t as [|[m p] t IH]; simpl in *; auto. inversion ND; subst. destruct (String.eqb m n); auto. simpl. constructor; auto.
    intros I. apply in_map_iff in I. destruct I as (e & E & I). apply in_mrem in I. apply H1. rewrite <- E. apply in_map. tauto.
  - intros I. apply in_map_iff in I. destruct I as (e & E & I). apply in_mrem in I. tauto.
Qed.
Lemma good_mrem n t : good t -> good (mrem n t).
Proof.
  intros (N & F). split. now apply keys_mrem. rewrite Forall_forall in *. intros e I. apply in_mrem in I. apply F. tauto.
Qed.
Lemma good_mset n p t : good t -> good (mset n (Some p) t).
Proof.
  intros G. pose proof (good_mrem n t G) as (N & F). destruct G as (N0 & _). split; simpl.
  - constructor; auto. now apply keys_mrem.
  - constructor; auto. simpl. congruence.
Qed.
Lemma good_nil : good [].
Proof. split; constructor. Qed.
Lemma good_found t n : good t -> mfind n t <> Some None.
Proof.
  intros (_ & F). induction t as [|[m p] t IH]; simpl; [congruence|]. inversion F; subst. destruct (String.eqb m n); auto. simpl in *. congruence.
Qed.

Definition held (q : option (option ptr)) (p : ptr) : nat := match q with Some (Some q) => if Nat.eq_dec q p then 1 else 0 | _ => 0 end.
Lemma cnt_pointers_cons m q t p : cnt (pointers ((m, q) :: t)) p = held (Some q) p + cnt (pointers t) p.
Proof. unfold pointers. simpl. destruct q as [p0|]; simpl; [|reflexivity]. destruct (Nat.eq_dec p0 p); reflexivity. Qed.
Lemma cnt_mrem n t p : NoDup (map fst t) -> cnt (pointers t) p = held (mfind n t) p + cnt (pointers (mrem n t)) p.
Proof.
  induction t as [|[m q] t IH]; intros ND; [reflexivity|]. inversion ND; subst. simpl mfind. simpl mrem. rewrite cnt_pointers_cons. destruct (String.eqb_spec m n) as [->|N].
  - destruct (mfind_none n t H1) as (-> & _). reflexivity.
  - rewrite cnt_pointers_cons. rewrite (IH H2). lia.
Qed.

Section Proofs.
Variable A : Type.
Implicit Types s : state A.

Lemma cnt_upd l c t p : c < length l -> cnt (flat_map pointers (upd l c t)) p + cnt (pointers (nth c l [])) p = cnt (flat_map pointers l) p + cnt (pointers t) p.
Proof.
  revert c. induction l as [|u l IH]; intros [|c] H; simpl in *; try lia; rewrite !count_occ_app.
  - lia.
  - specialize (IH c ltac:(lia)). lia.
Qed.
Lemma cnt_with_cache s own c t p : c < length (caches s) ->
  cnt (places (with_cache s c t) own) p + cnt (pointers (cache s c)) p = cnt (places s own) p + cnt (pointers t) p.
Proof. intros H. unfold places, with_cache, cache. simpl. rewrite !count_occ_app. pose proof (cnt_upd (caches s) c t p H). lia. Qed.

(** The invariant: a live map is in exactly one place, a dead one in none. *)
Definition one_place s own (p : ptr) : Prop := cnt (places s own) p = if live s p then 1 else 0.
Definition Inv s own : Prop := (forall p, one_place s own p) /\ Forall good (caches s).

Lemma cache_good s c : Forall good (caches s) -> good (cache s c).
Proof.
  intros F. unfold cache. destruct (Nat.lt_ge_cases c (length (caches s))) as [H|H]; [|rewrite nth_overflow by auto; apply good_nil].
  rewrite Forall_forall in F. apply F. now apply nth_In.
Qed.
Lemma Forall_upd' {T} (P : T -> Prop) l i x : Forall P l -> P x -> Forall P (upd l i x).
Proof. revert i. induction l as [|y l IH]; intros [|i] F H; simpl; inversion F; subst; constructor; auto. Qed.

Lemma live_with_cache s c t p : live (with_cache s c t) p = live s p.
Proof. reflexivity. Qed.
Lemma live_alloc s a p : live (fst (alloc s a)) p = if Nat.eqb p (length (heap s)) then true else live s p.
Proof.
  unfold live, alloc. simpl. destruct (Nat.eqb_spec p (length (heap s))) as [->|N].
  - rewrite nth_error_app2, Nat.sub_diag by lia. reflexivity.
  - destruct (Nat.lt_ge_cases p (length (heap s))).
    + now rewrite nth_error_app1 by lia.
    + rewrite (proj2 (nth_error_None _ _)) by (rewrite app_length; simpl; lia). rewrite (proj2 (nth_error_None _ _)) by lia. reflexivity.
Qed.
Lemma live_new s : live s (length (heap s)) = false.
Proof. unfold live. now rewrite (proj2 (nth_error_None _ _)) by lia. Qed.
Lemma live_free s p s' q : free s (Some p) = Ok s' -> live s p = true /\ caches s' = caches s /\ length (heap s') = length (heap s) /\ live s' q = if Nat.eqb q p then false else live s q.
Proof.
  unfold free. destruct (live s p) eqn:L; [|discriminate]. intros E; injection E as <-. repeat split; auto. simpl. apply upd_length. unfold live. simpl.
  destruct (Nat.eqb_spec q p) as [->|N].
  - rewrite nth_error_upd_eq. reflexivity. unfold live in L. apply nth_error_Some. intros Z. rewrite Z in L. discriminate.
  - now rewrite nth_error_upd_neq by auto.
Qed.

(** *** The moves between places *)
Lemma inv_alloc s own a : Inv s own -> Inv (fst (alloc s a)) (snd (alloc s a) :: own).
Proof.
  intros (I & F). split; [|exact F]. intros p. specialize (I p). unfold one_place in *. rewrite live_alloc. unfold places in *. simpl snd. simpl caches.
  rewrite !count_occ_app in *. simpl. destruct (Nat.eqb_spec p (length (heap s))) as [->|N].
  - rewrite live_new in I. destruct (Nat.eq_dec (length (heap s)) (length (heap s))); [lia|congruence].
  - destruct (Nat.eq_dec (length (heap s)) p); [congruence|]. lia.
Qed.
Lemma inv_alloc_in s own a c n : c < length (caches s) -> mfind n (cache s c) = None -> Inv s own ->
  Inv (with_cache (fst (alloc s a)) c (mset n (Some (snd (alloc s a))) (cache s c))) own.
Proof.
  intros Hc Fn (I & F). pose proof (cache_good s c F) as G. split.
  - intros p. unfold one_place. rewrite live_with_cache, live_alloc.
    pose proof (cnt_with_cache (fst (alloc s a)) own c (mset n (Some (snd (alloc s a))) (cache s c)) p Hc) as E.
    change (cache (fst (alloc s a)) c) with (cache s c) in E. change (places (fst (alloc s a)) own) with (places s own) in E.
    unfold mset in E at 2. rewrite cnt_pointers_cons in E. pose proof (cnt_mrem n (cache s c) p (proj1 G)) as E2. rewrite Fn in E2. simpl in E2, E |- *.
    specialize (I p). unfold one_place in I. destruct (Nat.eqb_spec p (length (heap s))) as [->|N].
    + rewrite live_new in I. destruct (Nat.eq_dec (length (heap s)) (length (heap s))); [lia|congruence].
    + destruct (Nat.eq_dec (length (heap s)) p); [congruence|]. lia.
  - simpl. apply Forall_upd'; auto. now apply good_mset.
Qed.
(** taking an entry out of a cache: the pointer goes to the program *)
Lemma inv_take s own c n p : c < length (caches s) -> mfind n (cache s c) = Some (Some p) -> Inv s own -> Inv (with_cache s c (mrem n (cache s c))) (p :: own).
Proof.
  intros Hc Fn (I & F). pose proof (cache_good s c F) as G. split.
  - intros q. unfold one_place. rewrite live_with_cache. pose proof (cnt_with_cache s own c (mrem n (cache s c)) q Hc) as E.
    pose proof (cnt_mrem n (cache s c) q (proj1 G)) as E2. rewrite Fn in E2. simpl in E2. specialize (I q). unfold one_place in I.
    assert (X : cnt (places (with_cache s c (mrem n (cache s c))) (p :: own)) q = cnt (places (with_cache s c (mrem n (cache s c))) own) q + (if Nat.eq_dec p q then 1 else 0)).
    { unfold places. rewrite !count_occ_app. simpl. destruct (Nat.eq_dec p q); lia. }
    rewrite X. lia.
  - simpl. apply Forall_upd'; auto. now apply good_mrem.
Qed.
Lemma cnt_remove l p q : cnt (List.remove Nat.eq_dec p l) q = if Nat.eq_dec p q then 0 else cnt l q.
Proof.
  induction l as [|x l IH]; simpl. destruct (Nat.eq_dec p q); auto. destruct (Nat.eq_dec p x) as [->|N].
  - rewrite IH. destruct (Nat.eq_dec x q); auto.
  - simpl. rewrite IH. destruct (Nat.eq_dec x q) as [->|]; auto. destruct (Nat.eq_dec p q); congruence.
Qed.
Lemma owned_one s own p : Inv s own -> In p own -> live s p = true /\ cnt own p = 1 /\ cnt (flat_map pointers (caches s)) p = 0.
Proof.
  intros (I & _) H. specialize (I p). unfold one_place, places in I. rewrite count_occ_app in I. apply (count_occ_In Nat.eq_dec) in H.
  destruct (live s p); [|lia]. repeat split; lia.
Qed.
Lemma inv_put s own c n p : c < length (caches s) -> mfind n (cache s c) = None -> In p own -> Inv s own ->
  Inv (with_cache s c (mset n (Some p) (cache s c))) (List.remove Nat.eq_dec p own).
Proof.
  intros Hc Fn Hp Hi. pose proof (owned_one s own p Hi Hp) as (L & C1 & C2). destruct Hi as (I & F). pose proof (cache_good s c F) as G. split.
  - intros q. unfold one_place. rewrite live_with_cache. pose proof (cnt_with_cache s (List.remove Nat.eq_dec p own) c (mset n (Some p) (cache s c)) q Hc) as E.
    unfold mset in E at 2. rewrite cnt_pointers_cons in E. pose proof (cnt_mrem n (cache s c) q (proj1 G)) as E2. rewrite Fn in E2. simpl in E2, E.
    specialize (I q). unfold one_place in I.
    assert (X : cnt (places s own) q = cnt (places s (List.remove Nat.eq_dec p own)) q + (if Nat.eq_dec p q then 1 else 0)).
    { unfold places. rewrite !count_occ_app, cnt_remove. destruct (Nat.eq_dec p q) as [<-|]; lia. }
    lia.
  - simpl. apply Forall_upd'; auto. now apply good_mset.
Qed.
Lemma inv_delete s own p s' : In p own -> Inv s own -> free s (Some p) = Ok s' -> Inv s' (List.remove Nat.eq_dec p own).
Proof.
  intros Hp Hi Fr. pose proof (owned_one s own p Hi Hp) as (L & C1 & C2). destruct Hi as (I & F).
  assert (Ca : caches s' = caches s) by (destruct (live_free s p s' 0 Fr) as (_ & X & _); exact X). split; [|now rewrite Ca].
  intros q. destruct (live_free s p s' q Fr) as (_ & _ & _ & Lq). unfold one_place. rewrite Lq. specialize (I q). unfold one_place in I.
  unfold places in *. rewrite Ca, count_occ_app in *. rewrite cnt_remove. destruct (Nat.eqb_spec q p) as [->|N].
  - destruct (Nat.eq_dec p p); [lia|congruence].
  - destruct (Nat.eq_dec p q); [congruence|]. lia.
Qed.
Lemma free_ok s p : live s p = true -> exists s', free s (Some p) = Ok s'.
Proof. intros L. unfold free. rewrite L. eauto. Qed.

(** *** The calls *)
Lemma cached_live s own c n p : c < length (caches s) -> Inv s own -> mfind n (cache s c) = Some (Some p) -> live s p = true.
Proof.
  intros Hc (I & F) Fn. specialize (I p). unfold one_place in I. destruct (live s p); auto. exfalso.
  pose proof (cnt_with_cache s own c (mrem n (cache s c)) p Hc) as E. pose proof (cnt_mrem n (cache s c) p (proj1 (cache_good s c F))) as E2.
  rewrite Fn in E2. simpl in E2. destruct (Nat.eq_dec p p); [lia|congruence].
Qed.
Lemma free_with s c t p : free (with_cache s c t) p = match free s p with Ok s' => Ok (with_cache s' c t) | Throw => Throw | UB => UB end.
Proof. destruct p as [p|]; [|reflexivity]. unfold free. rewrite live_with_cache. destruct (live s p); reflexivity. Qed.
(** erasing is taking out and deleting *)
Lemma inv_free_entry s own c n s' : c < length (caches s) -> Inv s own -> free s (match mfind n (cache s c) with Some p => p | None => None end) = Ok s' ->
  caches s' = caches s /\ Inv (with_cache s' c (mrem n (cache s c))) own.
Proof.
  intros Hc Hi Fr. destruct (mfind n (cache s c)) as [q|] eqn:Fn.
  - destruct q as [p|]; [|exfalso; eapply (good_found (cache s c) n); eauto; apply cache_good; apply Hi].
    pose proof (live_free s p s' 0 Fr) as (_ & Ca & _). split; auto.
    pose proof (inv_take s own c n p Hc Fn Hi) as H. assert (Q : free (with_cache s c (mrem n (cache s c))) (Some p) = Ok (with_cache s' c (mrem n (cache s c)))).
    { rewrite free_with, Fr. reflexivity. }
    apply (inv_delete _ (p :: own) p) in Q; auto; [|left; reflexivity]. simpl in Q. destruct (Nat.eq_dec p p); [|congruence].
    assert (X : List.remove Nat.eq_dec p own = own).
    { apply notin_remove. intros Hp. pose proof (owned_one s own p Hi Hp) as (_ & C1 & C2).
      destruct Hi as (I & F). pose proof (cached_live s own c n p Hc (conj I F) Fn) as L.
      pose proof (cnt_upd (caches s) c (mrem n (cache s c)) p Hc) as E. pose proof (cnt_mrem n (cache s c) p (proj1 (cache_good s c F))) as E2.
      rewrite Fn in E2. simpl in E2. destruct (Nat.eq_dec p p); [|congruence]. unfold cache in *. lia. }
    now rewrite X in Q.
  - simpl in Fr. injection Fr as <-. split; auto. destruct (mfind_none n (cache s c)) as (E & _).
    + intros I. clear - I Fn. induction (cache s c) as [|[m p] t IH]; simpl in *; auto. destruct (String.eqb_spec m n); [discriminate|]. destruct I; auto.
    + rewrite E. destruct Hi as (I & F). split.
      * intros p. unfold one_place. rewrite live_with_cache. pose proof (cnt_with_cache s own c (cache s c) p Hc). specialize (I p). unfold one_place in I. lia.
      * simpl. apply Forall_upd'; auto. now apply cache_good.
Qed.
Lemma free_entry_ok s own c n : c < length (caches s) -> Inv s own -> exists s', free s (match mfind n (cache s c) with Some p => p | None => None end) = Ok s'.
Proof.
  intros Hc Hi. destruct (mfind n (cache s c)) as [[p|]|] eqn:Fn; try (eexists; reflexivity). apply free_ok. eapply cached_live; eauto.
Qed.
Lemma free_caches s p s' : free s p = Ok s' -> caches s' = caches s.
Proof. destruct p as [p|]; simpl. destruct (live s p); [|discriminate]. intros E; injection E as <-; reflexivity. intros E; injection E as <-; reflexivity. Qed.
Lemma cache_caches s s' c : caches s' = caches s -> cache s' c = cache s c.
Proof. unfold cache. intros ->. reflexivity. Qed.

Definition fine (s' : state A) (n : nat) own (r : outcome (option ptr)) : Prop := length (caches s') = n /\ Inv s' own /\ r <> UB.

Lemma get_fine s own c src e : c < length (caches s) -> Inv s own -> has_map_to_build src e ->
  length (caches (fst (get s c src e))) = length (caches s) /\ Inv (fst (get s c src e)) own /\ snd (get s c src e) <> UB /\
  (forall q, snd (get s c src e) = Ok q -> exists p, q = Some p /\ mfind (sname src) (cache (fst (get s c src e)) c) = Some (Some p)).
Proof.
  intros Hc Hi Hb. unfold get. destruct (mfind (sname src) (cache s c)) as [[p|]|] eqn:Fn.
  - rewrite (cached_live s own c _ p Hc Hi Fn). simpl. repeat split; auto; try apply Hi; try congruence. intros q E; injection E as <-. eauto.
  - exfalso. eapply (good_found (cache s c) (sname src)); eauto. apply cache_good, Hi.
  - assert (B : forall a, let r := if makes e then let (s', p) := alloc s a in (with_cache s' c (mset (sname src) (Some p) (cache s' c)), Ok (Some p)) else (s, Throw) in
      length (caches (fst r)) = length (caches s) /\ Inv (fst r) own /\ snd r <> UB /\ (forall q, snd r = Ok q -> exists p, q = Some p /\ mfind (sname src) (cache (fst r) c) = Some (Some p))).
    { intros a. simpl. destruct (makes e); simpl; [|repeat split; try apply Hi; congruence]. rewrite upd_length. split; [reflexivity|]. split.
      - exact (inv_alloc_in s own a c (sname src) Hc Fn Hi).
      - split; [congruence|]. intros q E; injection E as <-. eexists; split; [reflexivity|]. unfold cache, with_cache. simpl.
        rewrite nth_upd_eq by auto. apply mfind_mset_eq. }
    destruct (in_file e) eqn:Ef; [apply B|]. destruct Hb as [Hb|[Hb|Hb]]; [congruence| |].
    + destruct (skind src); try apply B; try congruence. simpl. repeat split; try apply Hi; congruence.
    + rewrite Hb. destruct (skind src); try apply B. simpl. repeat split; try apply Hi; congruence.
Qed.
Lemma erase_fine s own c n : c < length (caches s) -> Inv s own ->
  length (caches (fst (erase s c n))) = length (caches s) /\ Inv (fst (erase s c n)) own /\ snd (erase s c n) = Ok tt /\ mfind n (cache (fst (erase s c n)) c) = None.
Proof.
  intros Hc Hi. destruct (free_entry_ok s own c n Hc Hi) as (s' & Fr). destruct (inv_free_entry s own c n s' Hc Hi Fr) as (Ca & I'). unfold erase. rewrite Fr.
  simpl. rewrite (cache_caches _ _ _ Ca). rewrite upd_length, Ca. repeat split; auto; try apply I'. unfold cache, with_cache. simpl. rewrite Ca, nth_upd_eq by auto. apply mfind_mrem_eq.
Qed.
Lemma load_fine s own c src rec e : c < length (caches s) -> Inv s own -> (rec = true -> makes e = true) ->
  length (caches (fst (load s c src rec e))) = length (caches s) /\ Inv (fst (load s c src rec e)) own /\ snd (load s c src rec e) <> UB.
Proof.
  intros Hc Hi Hm. unfold load. set (b := (match skind src with Diffuse => true | _ => false end || points e)%bool).
  destruct b eqn:Eb; [|simpl; repeat split; try apply Hi; congruence]. destruct rec.
  - destruct (free_entry_ok s own c (sname src) Hc Hi) as (s' & Fr). destruct (inv_free_entry s own c (sname src) s' Hc Hi Fr) as (Ca & I'). rewrite Fr, Hm by auto.
    simpl. rewrite upd_length, Ca. split; [reflexivity|]. split; [|congruence].
    assert (Hc' : c < length (caches (with_cache s' c (mrem (sname src) (cache s c))))) by (simpl; rewrite upd_length, Ca; auto).
    pose proof (inv_alloc_in _ own (sky src) c (sname src) Hc') as Q. unfold cache in Q at 1 2. simpl in Q. rewrite nth_upd_eq in Q by (rewrite Ca; auto).
    specialize (Q (mfind_mrem_eq _ _) I'). unfold with_cache in *. simpl in *. rewrite (cache_caches _ _ _ Ca) || idtac.
    unfold cache in *. simpl in *. rewrite Ca in *.
    assert (U : forall T (l : list T) i x y, upd (upd l i x) i y = upd l i y) by (clear; intros T l; induction l; intros [|i] x y; simpl; auto; f_equal; auto).
    rewrite U in Q. unfold mset in *.
    assert (M : forall n t, mrem n (mrem n t) = mrem n t).
    { clear. intros n t. induction t as [|[m p] t IH]; simpl; auto. destruct (String.eqb m n) eqn:E; auto. simpl. rewrite E. congruence. }
    rewrite nth_upd_eq, M in Q by auto. exact Q.
  - assert (Hb : has_map_to_build src e).
    { subst b. destruct (skind src) eqn:Ek; [right; right; exact Eb| | |]; right; left; congruence. }
    pose proof (get_fine s own c src e Hc Hi Hb) as (G1 & G2 & G3 & _). destruct (get s c src e) as (s', r). simpl in *. repeat split; auto; try apply G2. destruct r; congruence.
Qed.
Lemma compute_fine s own c src keep e : c < length (caches s) -> Inv s own -> has_map_to_build src e ->
  length (caches (fst (compute s c src keep e))) = length (caches s) /\ Inv (fst (compute s c src keep e)) own /\ snd (compute s c src keep e) <> UB.
Proof.
  intros Hc Hi Hb. unfold compute. pose proof (get_fine s own c src e Hc Hi Hb) as (G1 & G2 & G3 & G4). destruct (get s c src e) as (s', r). simpl in *.
  destruct r as [q| |]; [|simpl; repeat split; auto; try apply G2; congruence|congruence]. destruct (G4 q eq_refl) as (p & -> & Fp).
  rewrite (cached_live s' own c _ p ltac:(lia) G2 Fp). destruct (negb _ && negb keep); [|simpl; repeat split; auto; try apply G2; congruence].
  pose proof (erase_fine s' own c (sname src) ltac:(lia) G2) as (E1 & E2 & E3 & _). rewrite E3. repeat split; try congruence. apply E2. apply E2.
Qed.
Lemma insert_fine s own c n p : c < length (caches s) -> Inv s own -> In p own ->
  let r := insert s c n p in length (caches (fst r)) = length (caches s) /\ snd r <> UB /\ Inv (fst r) (owned_after own (@Insert A c n p) (unitr (snd r))).
Proof.
  intros Hc Hi Hp. unfold insert. destruct (mfind n (cache s c)) as [[q|]|] eqn:Fn.
  - destruct (Nat.eqb_spec q p) as [->|N]; [|simpl; repeat split; try apply Hi; congruence].
    exfalso. pose proof (owned_one s own p Hi Hp) as (_ & C1 & C2). destruct Hi as (I & F).
    pose proof (cnt_upd (caches s) c (mrem n (cache s c)) p Hc) as E. pose proof (cnt_mrem n (cache s c) p (proj1 (cache_good s c F))) as E2.
    rewrite Fn in E2. simpl in E2. destruct (Nat.eq_dec p p); [|congruence]. unfold cache in *. lia.
  - simpl; repeat split; try apply Hi; congruence.
  - simpl. rewrite upd_length. repeat split; try congruence; apply (inv_put s own c n p Hc Fn Hp Hi).
Qed.
Lemma replace_fine s own c n p : c < length (caches s) -> Inv s own -> In p own ->
  let r := replace s c n p in length (caches (fst r)) = length (caches s) /\ snd r <> UB /\ Inv (fst r) (owned_after own (@Replace A c n p) (unitr (snd r))).
Proof.
  intros Hc Hi Hp. unfold replace. pose proof (erase_fine s own c n Hc Hi) as (E1 & E2 & E3 & _). destruct (erase s c n) as (s', r). simpl in *. subst r.
  pose proof (insert_fine s' own c n p ltac:(lia) E2 Hp) as (F1 & F2 & F3). repeat split; auto; try apply F3. lia.
Qed.
Lemma free_all_fine t s own c : c < length (caches s) -> cache s c = t -> Inv s own -> exists s', free_all s t = Ok s' /\ caches s' = caches s /\ Inv (with_cache s' c []) own.
Proof.
  enough (G : forall t s, c < length (caches s) -> Inv (with_cache s c t) own -> exists s', free_all s t = Ok s' /\ caches s' = caches s /\ Inv (with_cache s' c []) own).
  { intros Hc <- Hi. apply G; auto. destruct Hi as (I & F). split.
    - intros p. unfold one_place. rewrite live_with_cache. pose proof (cnt_with_cache s own c (cache s c) p Hc). specialize (I p). unfold one_place in I. lia.
    - simpl. apply Forall_upd'; auto. now apply cache_good. }
  clear s t. induction t as [|[n q] t IH]; intros s Hc Hi.
  - exists s. simpl. repeat split; auto; apply Hi.
  - pose proof (cache_good _ c (proj2 Hi)) as G. unfold cache, with_cache in G. simpl in G. rewrite nth_upd_eq in G by auto.
    destruct q as [p|]; [|destruct G as (_ & F); inversion F; subst; simpl in *; congruence].
    assert (Hc' : c < length (caches (with_cache s c ((n, Some p) :: t)))) by (simpl; rewrite upd_length; auto).
    assert (Fn : mfind n (cache (with_cache s c ((n, Some p) :: t)) c) = Some (Some p)).
    { unfold cache, with_cache. simpl. rewrite nth_upd_eq by auto. simpl. now rewrite String.eqb_refl. }
    pose proof (cached_live _ own c n p Hc' Hi Fn) as L. rewrite live_with_cache in L. destruct (free_ok s p L) as (s1 & F1).
    assert (F1' : free (with_cache s c ((n, Some p) :: t)) (match mfind n (cache (with_cache s c ((n, Some p) :: t)) c) with Some p => p | None => None end) = Ok (with_cache s1 c ((n, Some p) :: t))).
    { rewrite Fn, free_with, F1. reflexivity. }
    destruct (inv_free_entry _ own c n _ Hc' Hi F1') as (_ & I1).
    assert (Ca : caches s1 = caches s) by (eapply free_caches; eauto).
    assert (E : with_cache (with_cache s1 c ((n, Some p) :: t)) c (mrem n (cache (with_cache s c ((n, Some p) :: t)) c)) = with_cache s1 c t).
    { unfold cache, with_cache. simpl. rewrite nth_upd_eq by auto. simpl. rewrite String.eqb_refl. f_equal.
      assert (M : mrem n t = t). { apply mfind_none. destruct G as (N & _). simpl in N. inversion N; auto. }
      rewrite M. clear. revert c. generalize (caches s1). intros l; induction l; intros [|i]; simpl; auto; f_equal; auto. }
    rewrite E in I1. destruct (IH s1 ltac:(rewrite Ca; auto) I1) as (s' & R & Ca' & I'). exists s'. change (free_all s ((n, Some p) :: t)) with (obind (free s (Some p)) (fun s' => free_all s' t)). rewrite F1. simpl obind. rewrite R. repeat split; auto; try apply I'. congruence.
Qed.

Theorem step_fine s own o : Inv s own -> polite (length (caches s)) own o -> buildable o -> rebuilt o ->
  let r := exec1 s o in length (caches (fst r)) = length (caches s) /\ snd r <> UB /\ Inv (fst r) (owned_after own o (snd r)).
Proof.
  intros Hi P B R. destruct o as [c src e|c src rec e|c src keep e|c n|c n p|c n p|c n|a|p|c]; simpl in P.
  - pose proof (get_fine s own c src e P Hi B) as (G1 & G2 & G3 & _). simpl. destruct (get s c src e) as (s', r). simpl in *. repeat split; auto; apply G2.
  - pose proof (load_fine s own c src rec e P Hi) as G. simpl in R. destruct G as (G1 & G2 & G3). { intros ->. exact R. }
    simpl. destruct (load s c src rec e) as (s', r). simpl in *. repeat split; auto; try apply G2. destruct r; simpl; congruence.
  - pose proof (compute_fine s own c src keep e P Hi B) as (G1 & G2 & G3). simpl. destruct (compute s c src keep e) as (s', r). simpl in *. repeat split; auto; try apply G2. destruct r; simpl; congruence.
  - pose proof (erase_fine s own c n P Hi) as (G1 & G2 & G3 & _). simpl. destruct (erase s c n) as (s', r). simpl in *. subst r. repeat split; auto; try apply G2. simpl. congruence.
  - destruct P as (Hc & Hp). pose proof (insert_fine s own c n p Hc Hi Hp) as (G1 & G2 & G3). simpl. destruct (insert s c n p) as (s', r). simpl in *. repeat split; auto; try apply G3. destruct r; simpl; congruence.
  - destruct P as (Hc & Hp). pose proof (replace_fine s own c n p Hc Hi Hp) as (G1 & G2 & G3). simpl. destruct (replace s c n p) as (s', r). simpl in *. repeat split; auto; try apply G3. destruct r; simpl; congruence.
  - simpl. unfold remove. destruct (mfind n (cache s c)) as [[p|]|] eqn:Fn; simpl.
    + rewrite upd_length. repeat split; try congruence; apply (inv_take s own c n p P Fn Hi).
    + exfalso. eapply (good_found (cache s c) n); eauto. apply cache_good, Hi.
    + repeat split; try congruence; apply Hi.
  - pose proof (inv_alloc s own a Hi). simpl in *. repeat split; auto; try apply H. congruence.
  - pose proof (owned_one s own p Hi P) as (L & _). destruct (free_ok s p L) as (s' & Fr). unfold exec1. rewrite Fr. pose proof (inv_delete s own p s' P Hi Fr). pose proof (free_caches _ _ _ Fr) as Ca.
    cbn [fst snd]. rewrite Ca. simpl owned_after. repeat split; auto; try apply H. congruence.
  - destruct (free_all_fine (cache s c) s own c P eq_refl Hi) as (s' & R' & Ca & I'). simpl. unfold destroy. rewrite R'. simpl. rewrite upd_length, Ca. repeat split; auto; try apply I'. congruence.
Qed.

Lemma start_inv n : Inv (@start A n) [].
Proof.
  split.
  - intros p. unfold one_place, places, live, start. simpl. destruct p; simpl; rewrite app_nil_r; induction n; simpl; auto.
  - simpl. induction n; simpl; constructor; auto. apply good_nil.
Qed.
End Proofs.

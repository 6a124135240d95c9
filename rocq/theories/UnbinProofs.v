(** Invariants of the unbinned likelihood: for C25, C26, C29. *)
From Coq Require Import Reals Lra Permutation Sorted.
From Verif Require Import Base SMap AccumModel AccumProofs BinnedProofs UnbinModel UnbinSpec.
Local Open Scope nat_scope.

(** ** Sorted maps *)
Lemma sorted_ext {V} : forall (m1 m2 : SMap.smap V), sorted m1 -> sorted m2 -> (forall k, mfind k m1 = mfind k m2) -> m1 = m2.
Proof.
  induction m1 as [|[k v] m1 IH]; intros [|[k' v'] m2] S1 S2 H; auto.
  - specialize (H k'). simpl in H. rewrite Z.eqb_refl in H. discriminate.
  - specialize (H k). simpl in H. rewrite Z.eqb_refl in H. discriminate.
  - apply sorted_cons in S1 as [S1 F1]. apply sorted_cons in S2 as [S2 F2].
    rewrite Forall_forall in F1, F2.
    assert (E : k = k').
    { pose proof (H k) as Hk. pose proof (H k') as Hk'. simpl in Hk, Hk'. rewrite Z.eqb_refl in Hk, Hk'.
      destruct (Z.eqb_spec k k'); auto. destruct (Z.eqb_spec k' k) as [|]; [congruence|].
      symmetry in Hk. apply mfind_in in Hk. apply mfind_in in Hk'.
      assert (In k (mkeys m2)) by (apply (in_map fst) in Hk; exact Hk).
      assert (In k' (mkeys m1)) by (apply (in_map fst) in Hk'; exact Hk').
      apply F2 in H0. apply F1 in H1. lia. }
    subst k'. pose proof (H k) as Hk. simpl in Hk. rewrite Z.eqb_refl in Hk. inversion Hk; subst v'.
    f_equal. apply IH; auto. intros x. pose proof (H x) as Hx. simpl in Hx.
    destruct (Z.eqb_spec x k) as [Ex|]; [rewrite Ex; clear Hx Ex|exact Hx].
    assert (A : forall m : SMap.smap V, (forall x, In x (mkeys m) -> (k < x)%Z) -> mfind k m = None).
    { intros m F. apply mfind_none. intros I. apply F in I. lia. }
    rewrite (A m1), (A m2); auto.
Qed.
Lemma mfind_onto {V W} (f : Z -> V -> W) k : forall m : SMap.smap V, mfind k (map (fun nx => (fst nx, f (fst nx) (snd nx))) m) = option_map (f k) (mfind k m).
Proof. induction m as [|[n x] m IH]; simpl; auto. destruct (Z.eqb_spec k n) as [->|]; auto. Qed.
Lemma mkeys_onto {V W} (f : Z -> V -> W) (m : SMap.smap V) : mkeys (map (fun nx => (fst nx, f (fst nx) (snd nx))) m) = mkeys m.
Proof. unfold mkeys. rewrite map_map. reflexivity. Qed.
Lemma sorted_onto {V W} (f : Z -> V -> W) (m : SMap.smap V) : sorted m -> sorted (map (fun nx => (fst nx, f (fst nx) (snd nx))) m).
Proof. unfold sorted. now rewrite mkeys_onto. Qed.
Lemma keys_insert_present {V} k (v : V) m : sorted m -> In k (mkeys m) -> mkeys (minsert k v m) = mkeys m.
Proof.
  intros Sm I. assert (P : map (fun x => (x, tt)) (mkeys (minsert k v m)) = map (fun x => (x, tt)) (mkeys m)).
  { assert (K : forall l : list Z, mkeys (map (fun x => (x, tt)) l) = l) by (intros l; unfold mkeys; rewrite map_map; apply map_id).
    apply sorted_ext; unfold sorted; rewrite ?K; auto. apply sorted_insert; auto.
    intros x.
    assert (N : forall l, mfind x (map (fun x => (x, tt)) l) = if existsb (Z.eqb x) l then Some tt else None).
    { induction l as [|y l IH]; simpl; auto. destruct (x =? y)%Z; auto. }
    rewrite !N.
    destruct (existsb (Z.eqb x) (mkeys m)) eqn:E.
    - apply existsb_In in E. assert (E' : In x (mkeys (minsert k v m))) by (apply mkeys_insert_in; auto). apply existsb_In in E'. now rewrite E'.
    - apply existsb_nIn in E. assert (E' : ~ In x (mkeys (minsert k v m))).
      { rewrite mkeys_insert_in. intros [->|]; auto. }
      apply existsb_nIn in E'. now rewrite E'. }
  assert (Q := f_equal (map fst) P). rewrite !map_map, !map_id in Q. exact Q.
Qed.
Lemma sum_insert n (c : R) m : sorted m -> Rsum (map snd (minsert n c m)) = (Rsum (map snd m) - match mfind n m with Some x => x | None => 0 end + c)%R.
Proof.
  intros Sm. destruct (mfind n m) as [x|] eqn:E.
  - assert (P : minsert n c m = minsert n c (merase n m)).
    { apply sorted_ext; try apply sorted_insert; auto; try now apply sorted_erase. intros k. destruct (Z.eq_dec k n) as [->|].
      - now rewrite !mfind_insert_eq. - now rewrite !mfind_insert_neq, mfind_erase_neq. }
    rewrite P. rewrite (Rsum_perm _ _ (Permutation_map snd (minsert_perm n c _ (mfind_erase_eq n m Sm)))).
    rewrite <- (Rsum_perm _ _ (Permutation_map snd (merase_perm n x m E))). unfold Rsum. simpl. lra.
  - rewrite (Rsum_perm _ _ (Permutation_map snd (minsert_perm n c _ E))). unfold Rsum. simpl. lra.
Qed.
Lemma sum_erase n m : sorted m -> Rsum (map snd (merase n m)) = (Rsum (map snd m) - match mfind n m with Some x => x | None => 0 end)%R.
Proof.
  intros Sm. destruct (mfind n m) as [x|] eqn:E.
  - rewrite <- (Rsum_perm _ _ (Permutation_map snd (merase_perm n x m E))). unfold Rsum. simpl. lra.
  - rewrite merase_absent; auto. lra.
Qed.
Lemma keys_erase {V} n (m : SMap.smap V) x : sorted m -> In x (mkeys (merase n m)) <-> In x (mkeys m) /\ x <> n.
Proof.
  intros Sm. split.
  - intros I. split; [now apply mkeys_erase_in in I|]. intros ->. pose proof (mfind_erase_eq n m Sm) as F. apply mfind_none in F. auto.
  - intros [I N]. destruct (mfind x (merase n m)) eqn:E.
    + apply mfind_in in E. apply (in_map fst) in E. exact E.
    + rewrite mfind_erase_neq in E by auto. apply mfind_none in E. contradiction.
Qed.
Lemma sorted_keys_ext (l1 l2 : list Z) : StronglySorted Z.lt l1 -> StronglySorted Z.lt l2 -> (forall x, In x l1 <-> In x l2) -> l1 = l2.
Proof.
  intros S1 S2 H. assert (K : forall l : list Z, mkeys (map (fun x => (x, tt)) l) = l) by (intros l; unfold mkeys; rewrite map_map; apply map_id).
  assert (P : map (fun x => (x, tt)) l1 = map (fun x => (x, tt)) l2).
  { apply sorted_ext; unfold sorted; rewrite ?K; auto. intros x.
    assert (N : forall l, mfind x (map (fun x => (x, tt)) l) = if existsb (Z.eqb x) l then Some tt else None).
    { induction l as [|y l IH]; simpl; auto. destruct (x =? y)%Z; auto. }
    rewrite !N. destruct (existsb (Z.eqb x) l2) eqn:E.
    - apply existsb_In in E. apply H in E. apply existsb_In in E. now rewrite E.
    - apply existsb_nIn in E. rewrite <- H in E. apply existsb_nIn in E. now rewrite E. }
  rewrite <- (K l1), <- (K l2). now rewrite P.
Qed.

(** ** One event *)
Definition ev_apply (e : uev) (o : eop) : uev := match o with EUpdate n c => updateModelSum e n c | EDelete n => ev_deleteSource e n | EReset => resetModelSum e end.
Definition ev_good (e : uev) : Prop := sorted (ev_flux e) /\ ev_sum e = Rsum (map snd (ev_flux e)).
Lemma update_good e n c : ev_good e -> ev_good (updateModelSum e n c).
Proof.
  intros [A B]. split; simpl. now apply sorted_insert. rewrite sum_insert by auto. destruct (mfind n (ev_flux e)); lra.
Qed.
Lemma delete_flux e n : sorted (ev_flux e) -> ev_flux (ev_deleteSource e n) = merase n (ev_flux e).
Proof.
  intros A. unfold ev_deleteSource. simpl. destruct (mfind n (ev_flux e)) eqn:E; auto.
  apply sorted_ext; try apply sorted_erase; auto; try now apply sorted_insert.
  intros k. destruct (Z.eq_dec k n) as [->|]. rewrite !mfind_erase_eq; auto. now apply sorted_insert.
  now rewrite !mfind_erase_neq, mfind_insert_neq.
Qed.
Lemma delete_good e n : ev_good e -> ev_good (ev_deleteSource e n).
Proof.
  intros [A B]. split. rewrite delete_flux by auto. now apply sorted_erase.
  rewrite delete_flux by auto. rewrite sum_erase by auto. simpl. rewrite B.
  destruct (mfind n (ev_flux e)) eqn:E. rewrite E. lra. rewrite mfind_insert_eq. lra.
Qed.
Lemma events_ok l : let e := fold_left ev_apply l ev_zero in ev_good e /\ ev_flux e = registered l.
Proof.
  unfold registered. induction l as [|o l IH] using rev_ind; simpl.
  - split; [split|]; simpl; auto. constructor.
  - rewrite !fold_left_app. simpl. destruct IH as [G F]. simpl in G, F. destruct o; simpl.
    + split. now apply update_good. now rewrite F.
    + split. now apply delete_good. etransitivity; [apply delete_flux, G|]. now rewrite F.
    + split; auto. split; simpl; auto. constructor.
Qed.
Lemma registered_sorted l : sorted (registered l).
Proof. destruct (events_ok l) as [[A _] B]. simpl in A, B. now rewrite <- B. Qed.
Lemma latest_ok l n : mfind n (registered l) = latest n (rev l).
Proof.
  induction l as [|o l IH] using rev_ind; auto. rewrite rev_app_distr. simpl. unfold registered. rewrite fold_left_app. fold (registered l). simpl.
  destruct o as [n' c|n'|]; auto.
  - destruct (Z.eqb_spec n n') as [->|]. apply mfind_insert_eq. now rewrite mfind_insert_neq.
  - destruct (Z.eqb_spec n n') as [->|]. apply mfind_erase_eq, registered_sorted. now rewrite mfind_erase_neq.
Qed.

(** ** The cache of responses *)
Section Cache.
Context {T : Type} (dflt : T).
Definition c_apply (c : @esc T) (o : cop T) : esc :=
  match o with
  | CRead i n => fst (esc_read dflt c i n)
  | CWrite i n x => fst (esc_write dflt c i n x)
  | CDelete n => esc_deleteSource c n
  | CClear k => clearAndResize k
  end.
Definition c_good (c : @esc T) : Prop := sorted (es_map c) /\ forall n v, mfind n (es_map c) = Some v -> length v = es_n c.
Definition c_val (c : @esc T) (i : nat) (n : Z) : T := match mfind n (es_map c) with Some v => nth i v dflt | None => dflt end.
Lemma touch_ok c n : c_good c -> let (c', v) := esc_touch dflt c n in
  c_good c' /\ es_n c' = es_n c /\ mfind n (es_map c') = Some v /\ length v = es_n c /\ (forall i m, c_val c' i m = c_val c i m) /\
  (forall m, m <> n -> mfind m (es_map c') = mfind m (es_map c)) /\ (forall i, nth i v dflt = c_val c i n) /\ es_map c' = minsert n v (es_map c).
Proof.
  intros [Sm G]. unfold esc_touch. set (v0 := match mfind n (es_map c) with Some v => v | None => [] end).
  set (v := if length v0 =? es_n c then v0 else vec_resize v0 (es_n c) dflt).
  assert (L : length v = es_n c). { unfold v. destruct (Nat.eqb_spec (length v0) (es_n c)); auto. apply vec_resize_length. }
  assert (V : forall i, nth i v dflt = c_val c i n).
  { intros i. unfold v, v0, c_val. destruct (mfind n (es_map c)) as [w|] eqn:E.
    - rewrite (G _ _ E), Nat.eqb_refl. auto.
    - assert (P : forall k i, nth i (repeat dflt k) dflt = dflt) by (induction k; intros [|?]; simpl; auto).
      assert (Q : vec_resize [] (es_n c) dflt = repeat dflt (es_n c)) by (unfold vec_resize; rewrite firstn_nil; simpl; now rewrite Nat.sub_0_r).
      rewrite Q. destruct (length [] =? es_n c); [destruct i; reflexivity|apply P]. }
  simpl. repeat split; simpl; auto.
  - now apply sorted_insert.
  - intros m w. destruct (Z.eq_dec m n) as [->|]. rewrite mfind_insert_eq. intros [= <-]; auto. rewrite mfind_insert_neq by auto. apply G.
  - apply mfind_insert_eq.
  - intros i m. destruct (Z.eq_dec m n) as [->|]. unfold c_val at 1. simpl. rewrite mfind_insert_eq. auto. unfold c_val. simpl. now rewrite mfind_insert_neq.
  - intros m Hm. now rewrite mfind_insert_neq.
Qed.
Lemma vec_at_nth (v : list T) i : i < length v -> vec_at v i = Ok (nth i v dflt).
Proof. intros H. unfold vec_at. now rewrite (nth_error_nth' v dflt H). Qed.
Lemma vec_at_out (v : list T) i : length v <= i -> vec_at v i = Throw.
Proof. intros H. unfold vec_at. apply nth_error_None in H. now rewrite H. Qed.
Lemma read_ok c i n : c_good c -> snd (esc_read dflt c i n) = (if i <? es_n c then Ok (c_val c i n) else Throw) /\
  c_good (fst (esc_read dflt c i n)) /\ es_n (fst (esc_read dflt c i n)) = es_n c /\ (forall i' m, c_val (fst (esc_read dflt c i n)) i' m = c_val c i' m).
Proof.
  intros G. unfold esc_read. pose proof (touch_ok c n G) as H. destruct (esc_touch dflt c n) as [c' v]. destruct H as (A & B & C & D & E & F & V & _). simpl.
  split; [|auto]. destruct (Nat.ltb_spec i (es_n c)). rewrite vec_at_nth by lia. now rewrite V. apply vec_at_out; lia.
Qed.
Lemma write_ok c i n x : c_good c -> snd (esc_write dflt c i n x) = (if i <? es_n c then Ok tt else Throw) /\
  c_good (fst (esc_write dflt c i n x)) /\ es_n (fst (esc_write dflt c i n x)) = es_n c /\
  (forall i' m, c_val (fst (esc_write dflt c i n x)) i' m = if (i' =? i) && (m =? n)%Z && (i <? es_n c) then x else c_val c i' m).
Proof.
  intros G. unfold esc_write. pose proof (touch_ok c n G) as H. destruct (esc_touch dflt c n) as [c' v]. destruct H as ([A A'] & B & C & D & E & F & V & _). simpl.
  destruct (Nat.ltb_spec i (es_n c)) as [Hi|Hi].
  - rewrite vec_at_nth by lia. simpl. repeat split; auto.
    + simpl. now apply sorted_insert.
    + simpl. intros m w. destruct (Z.eq_dec m n) as [->|]. rewrite mfind_insert_eq. intros [= <-]. rewrite upd_length. congruence. rewrite mfind_insert_neq by auto. apply A'.
    + intros i' m. unfold c_val at 1. simpl. destruct (Z.eqb_spec m n) as [->|Hm].
      * rewrite mfind_insert_eq. rewrite andb_true_r. destruct (Nat.eqb_spec i' i) as [->|].
        -- simpl. apply nth_upd_eq. lia.
        -- simpl. rewrite nth_upd_neq by lia. apply V.
      * rewrite mfind_insert_neq by auto. rewrite andb_false_r. simpl. unfold c_val. now rewrite F.
  - rewrite vec_at_out by lia. simpl. split; auto. split; [split; auto|]. split; auto. intros i' m. rewrite andb_false_r. auto.
Qed.
Lemma history_ok k0 l : let c := fold_left c_apply l (clearAndResize k0) in
  c_good c /\ es_n c = events_now k0 (rev l) /\ forall i n, c_val c i n = stored dflt k0 i n (rev l).
Proof.
  induction l as [|o l IH] using rev_ind.
  - simpl. repeat split; simpl; auto. constructor. discriminate.
  - rewrite rev_app_distr, fold_left_app. simpl. set (c := fold_left c_apply l (clearAndResize k0)) in *. destruct IH as (G & N & V).
    destruct o as [i n|i n x|n|k]; simpl.
    + destruct (read_ok c i n G) as (_ & A & B & C). split; [exact A|]. split; [congruence|]. intros. now rewrite C.
    + destruct (write_ok c i n x G) as (_ & A & B & C). split; [exact A|]. split; [congruence|]. intros i' m. rewrite C, V, N.
      destruct (Nat.eqb_spec i' i) as [->|]; simpl; auto.
    + split; [split; simpl; [apply sorted_erase, G|]|]. 
      * intros m v. destruct (Z.eq_dec m n) as [->|]. rewrite mfind_erase_eq by apply G. discriminate. rewrite mfind_erase_neq by auto. apply G.
      * split; auto. intros i m. unfold c_val. simpl. destruct (Z.eqb_spec m n) as [->|]. rewrite mfind_erase_eq by apply G. auto.
        rewrite mfind_erase_neq by auto. apply V.
    + repeat split; simpl; auto. constructor. discriminate.
Qed.
End Cache.

(** ** The likelihood *)
Section Like.
Context (ph : uphys) (g : ucfg) (npar : Z -> nat).
Notation nev := (uc_nev g).

Definition cache_ok (c : @esc (bool * R)) (srcs : SMap.smap usrc) : Prop :=
  es_n c = nev /\ c_good c /\ forall n v, mfind n (es_map c) = Some v -> exists s, mfind n srcs = Some s /\
    forall j, fst (nth j v (false, 0%R)) = true -> snd (nth j v (false, 0%R)) = up_resp ph (us_img s) j.
Definition ev_ok (srcs : SMap.smap usrc) (e : uev) : Prop := ev_good e /\ mkeys (ev_flux e) = mkeys srcs.
Definition evs_ok (srcs : SMap.smap usrc) (evs : list uev) : Prop := length evs = nev /\ forall j, j < nev -> ev_ok srcs (nth j evs ev_zero).
Definition keeps (free : list Z) (e e' : uev) : Prop := forall n, ~ In n free -> mfind n (ev_flux e') = mfind n (ev_flux e).
Definition flux_of (n : Z) (s : usrc) (j : nat) : R := (up_spec ph (us_fn s) (us_par s) j * (if us_diffuse s then up_dresp ph n j else up_resp ph (us_img s) j))%R.
Lemma density_flux n s j : density ph n s j = (flux_of n s j * up_eff ph j)%R. Proof. reflexivity. Qed.

Lemma cache_write_back c srcs n s j (f : bool * R -> bool * R) :
  cache_ok c srcs -> mfind n srcs = Some s -> j < nev ->
  (forall e, (fst e = true -> snd e = up_resp ph (us_img s) j) -> fst (f e) = true -> snd (f e) = up_resp ph (us_img s) j) ->
  exists c1 e c2, esc_read (false, 0%R) c j n = (c1, Ok e) /\ (fst e = true -> snd e = up_resp ph (us_img s) j) /\
    esc_write (false, 0%R) c1 j n (f e) = (c2, Ok tt) /\ cache_ok c2 srcs.
Proof.
  intros (N & G & V) F Hj Hf. unfold esc_read. pose proof (touch_ok (false, 0%R) c n G) as H. destruct (esc_touch (false, 0%R) c n) as [c1 v] eqn:Et.
  destruct H as (A & B & C & D & _ & _ & W & M).
  assert (Hv : forall i, fst (nth i v (false, 0%R)) = true -> snd (nth i v (false, 0%R)) = up_resp ph (us_img s) i).
  { intros i. rewrite W. unfold c_val. destruct (mfind n (es_map c)) as [w|] eqn:E; [|discriminate]. destruct (V _ _ E) as (s' & Es & Hs). rewrite F in Es. inversion Es; subst s'. apply Hs. }
  rewrite vec_at_nth with (dflt := (false, 0%R)) by lia.
  exists c1, (nth j v (false, 0%R)). unfold esc_write. pose proof (touch_ok (false, 0%R) c1 n A) as H. destruct (esc_touch (false, 0%R) c1 n) as [c2 v2] eqn:Et2.
  destruct H as (A2 & B2 & C2 & D2 & _ & _ & W2 & M2).
  rewrite vec_at_nth with (dflt := (false, 0%R)) by lia.
  eexists. split; [reflexivity|]. split; [apply Hv|]. split; [reflexivity|].
  assert (Hv2 : forall i, fst (nth i v2 (false, 0%R)) = true -> snd (nth i v2 (false, 0%R)) = up_resp ph (us_img s) i).
  { intros i. rewrite W2. unfold c_val. rewrite C. apply Hv. }
  split; [simpl; congruence|]. split.
  - split; simpl. apply sorted_insert, A2. intros m w. destruct (Z.eq_dec m n) as [->|]. rewrite mfind_insert_eq. intros [= <-]. rewrite upd_length. lia. rewrite mfind_insert_neq by auto. intros H. apply A2 in H. auto.
  - simpl. intros m w. destruct (Z.eq_dec m n) as [->|Hm].
    + rewrite mfind_insert_eq. intros [= <-]. exists s. split; auto. intros i. destruct (Nat.eq_dec i j) as [->|].
      * rewrite nth_upd_eq by lia. apply Hf. apply Hv.
      * rewrite nth_upd_neq by auto. apply Hv2.
    + rewrite mfind_insert_neq by auto. rewrite M2, mfind_insert_neq, M, mfind_insert_neq by auto. apply V.
Qed.
Lemma cached_flux_ok st j n s : cache_ok (u_cache st) (u_src st) -> mfind n (u_src st) = Some s -> j < nev ->
  exists c', cached_flux ph st j n s = (w_cache st c', Ok (flux_of n s j)) /\ cache_ok c' (u_src st).
Proof.
  intros C F Hj.
  destruct (cache_write_back _ _ n s j (fun e => snd (fluxDensity ph n s j e)) C F Hj) as (c1 & e & c2 & A & Be & D & E).
  - intros e He. unfold fluxDensity. destruct (us_diffuse s); simpl; auto. destruct (fst e); simpl; auto.
  - exists c2. split; auto. unfold cached_flux. rewrite A.
    destruct (fluxDensity ph n s j e) as [f e'] eqn:Ef.
    cbv beta in D. simpl snd in D. rewrite D. do 2 f_equal.
    unfold fluxDensity in Ef. unfold flux_of. destruct (us_diffuse s). injection Ef as <- _; auto.
    destruct (fst e) eqn:Ee; injection Ef as <- _; auto. now rewrite Be.
Qed.
Definition dflux_of (n : Z) (s : usrc) (j i : nat) : R :=
  if (match up_pref ph (us_fn s) with Some k => i =? k | None => false end) && negb (Reqb (nth i (us_par s) 0%R) 0%R)
  then (flux_of n s j / nth i (us_par s) 0)%R
  else ((if us_diffuse s then up_dresp ph n j else up_resp ph (us_img s) j) * up_dspec ph (us_fn s) (us_par s) i j)%R.
Lemma cached_deriv_ok st j n s i : cache_ok (u_cache st) (u_src st) -> mfind n (u_src st) = Some s -> j < nev ->
  exists c', cached_deriv ph st j n s i = (w_cache st c', Ok (dflux_of n s j i)) /\ cache_ok c' (u_src st).
Proof.
  intros C F Hj.
  destruct (cache_write_back _ _ n s j (fun e => snd (fluxDensityDeriv ph n s j i e)) C F Hj) as (c1 & e & c2 & A & Be & D & E).
  - intros e He. unfold fluxDensityDeriv, fluxDensity.
    match goal with |- context [if ?b then _ else _] => destruct b end; destruct (us_diffuse s); simpl; auto; destruct (fst e); simpl; auto.
  - exists c2. split; auto. unfold cached_deriv. rewrite A.
    destruct (fluxDensityDeriv ph n s j i e) as [f e'] eqn:Ef.
    simpl snd in D. rewrite D. do 2 f_equal.
    unfold fluxDensityDeriv, fluxDensity in Ef. unfold dflux_of, flux_of.
    match goal with |- context [if ?b then _ else _] => destruct b end; destruct (us_diffuse s); try (injection Ef as <- _; lra);
    destruct (fst e) eqn:Ee; injection Ef as <- _; rewrite ?Be by auto; auto.
Qed.

Lemma w_ev_cache_id st : w_ev (w_cache st (u_cache st)) (u_ev st) = st. Proof. now destruct st. Qed.
Lemma update_ok srcs e n c : sorted srcs -> ev_ok srcs e -> In n (mkeys srcs) -> ev_ok srcs (updateModelSum e n c) /\
  forall m, mfind m (ev_flux (updateModelSum e n c)) = if (m =? n)%Z then Some c else mfind m (ev_flux e).
Proof.
  intros Ss [G K] I. split; [split|].
  - now apply update_good.
  - simpl. rewrite keys_insert_present; auto. apply G. now rewrite K.
  - intros m. simpl. destruct (Z.eqb_spec m n) as [->|]. apply mfind_insert_eq. now rewrite mfind_insert_neq.
Qed.
Definition ev_part (st : ust) (j : nat) (done : list (Z * usrc)) (evs' : list uev) : Prop :=
  evs_ok (u_src st) evs' /\ (forall k, k < nev -> keeps (u_free st) (nth k (u_ev st) ev_zero) (nth k evs' ev_zero)) /\
  (forall k, k < nev -> k <> j -> nth k evs' ev_zero = nth k (u_ev st) ev_zero) /\
  (forall n s, In (n, s) done -> In n (u_free st) -> mfind n (ev_flux (nth j evs' ev_zero)) = Some (density ph n s j)).
Lemma upd_event_eq st j n c : j < length (u_ev st) -> upd_event st j n c = w_ev st (upd (u_ev st) j (updateModelSum (nth j (u_ev st) ev_zero) n c)).
Proof. intros H. unfold upd_event. now rewrite (nth_error_nth' _ ev_zero H). Qed.
Lemma source_sum_ok st0 j : j < nev -> sorted (u_src st0) -> forall l done st total, ev_part st0 j done (u_ev st) ->
  cache_ok (u_cache st) (u_src st0) -> st = w_ev (w_cache st0 (u_cache st)) (u_ev st) ->
  (forall n s, In (n, s) (done ++ l) -> mfind n (u_src st0) = Some s) ->
  exists c' evs', source_sum ph st j l total = (w_ev (w_cache st0 c') evs', Ok (total + Rsum (map (fun ns => density ph (fst ns) (snd ns) j) l))%R) /\
    cache_ok c' (u_src st0) /\ ev_part st0 j (done ++ l) evs'.
Proof.
  intros Hj Ss. induction l as [|[n s] l IH]; intros done st total EP C Est Hl; simpl source_sum.
  - exists (u_cache st), (u_ev st). rewrite app_nil_r. split; [|auto]. rewrite Est at 1. f_equal. f_equal. unfold Rsum. simpl. lra.
  - assert (Fn : mfind n (u_src st0) = Some s) by (apply Hl, in_app_iff; right; now left).
    assert (Es : u_src st = u_src st0) by (rewrite Est; reflexivity). assert (Ef : u_free st = u_free st0) by (rewrite Est; reflexivity).
    assert (In_n : In n (mkeys (u_src st0))) by (apply mfind_in in Fn; apply (in_map fst) in Fn; exact Fn).
    (* the first part *)
    assert (S1 : exists st1, (if existsb (Z.eqb n) (u_free st) then updateSum ph st j n s else (st, Ok tt)) = (st1, Ok tt) /\
      cache_ok (u_cache st1) (u_src st0) /\ st1 = w_ev (w_cache st0 (u_cache st1)) (u_ev st1) /\ ev_part st0 j (done ++ [(n, s)]) (u_ev st1)).
    { rewrite Ef. destruct (existsb (Z.eqb n) (u_free st0)) eqn:E.
      - apply existsb_In in E. destruct (cached_flux_ok st j n s) as (c1 & A & B). rewrite Es; auto. rewrite Es; auto. auto.
        destruct EP as (P1 & P2 & P3 & P4). unfold updateSum. rewrite A. cbn [ubind].
        rewrite upd_event_eq by (simpl; destruct P1; lia).
        eexists. split; [reflexivity|]. split; [simpl; now rewrite Es in B|]. split; [rewrite Est; reflexivity|].
        destruct (update_ok (u_src st0) (nth j (u_ev st) ev_zero) n (flux_of n s j * up_eff ph j)%R Ss (proj2 P1 j Hj) In_n) as [U1 U2].
        assert (Lev : length (u_ev st) = nev) by apply P1.
        simpl. split; [split|].
        + rewrite upd_length. auto.
        + intros k Hk. destruct (Nat.eq_dec k j) as [->|]. rewrite nth_upd_eq by lia. exact U1. rewrite nth_upd_neq by auto. now apply P1.
        + split; [|split].
          * intros k Hk m Hm. destruct (Nat.eq_dec k j) as [->|]. rewrite nth_upd_eq by lia. rewrite U2.
            destruct (Z.eqb_spec m n) as [->|]; [contradiction|]. now apply P2. rewrite nth_upd_neq by auto. now apply P2.
          * intros k Hk Hkj. rewrite nth_upd_neq by auto. now apply P3.
          * intros m s' I If. rewrite nth_upd_eq by lia. rewrite U2. destruct (Z.eqb_spec m n) as [->|].
            -- rewrite density_flux. assert (Em : mfind n (u_src st0) = Some s').
               { apply Hl. apply in_app_iff in I as [I|[I|[]]]; apply in_app_iff; [now left|right; left; auto]. }
               rewrite Fn in Em. now inversion Em.
            -- apply P4; auto. apply in_app_iff in I as [I|[I|[]]]; auto. congruence.
      - apply existsb_nIn in E. exists st. split; [reflexivity|]. split; [exact C|]. split; [exact Est|].
        destruct EP as (P1 & P2 & P3 & P4). split; [exact P1|]. split; [exact P2|]. split; [exact P3|].
        intros m s' I If. apply in_app_iff in I as [I|[I|[]]]; auto. inversion I; subst. contradiction. }
    destruct S1 as (st1 & E1 & C1 & Est1 & EP1). rewrite E1. cbn [ubind].
    assert (Es1 : u_src st1 = u_src st0) by (rewrite Est1; reflexivity).
    destruct (cached_flux_ok st1 j n s) as (c2 & A & B). rewrite Es1; auto. rewrite Es1; auto. auto.
    rewrite A. cbn [ubind]. rewrite Es1 in B.
    destruct (IH (done ++ [(n, s)]) (w_cache st1 c2) (total + flux_of n s j * up_eff ph j)%R) as (c' & evs' & Er & Cr & EPr).
    + exact EP1. + exact B. + simpl. rewrite Est1. reflexivity. + rewrite <- app_assoc. exact Hl.
    + exists c', evs'. split; [|split; [exact Cr|]]. rewrite Er. f_equal. f_equal. unfold Rsum. simpl. rewrite density_flux. lra.
      rewrite <- app_assoc in EPr. exact EPr.
Qed.
Lemma sorted_In (srcs : SMap.smap usrc) n s : sorted srcs -> In (n, s) srcs -> mfind n srcs = Some s.
Proof. intros. now apply mfind_In. Qed.
Lemma logSourceModel_ok st j : uc_catch g = false -> j < nev -> sorted (u_src st) -> evs_ok (u_src st) (u_ev st) -> cache_ok (u_cache st) (u_src st) ->
  exists c' evs', logSourceModel ph g st j = (w_ev (w_cache st c') evs', Ok (log_density ph (u_src st) j)) /\ cache_ok c' (u_src st) /\ ev_part st j (u_src st) evs'.
Proof.
  intros Hc Hj Ss EV C. unfold logSourceModel.
  destruct (source_sum_ok st j Hj Ss (u_src st) [] st 0%R) as (c' & evs' & A & B & D); auto.
  - split; [exact EV|]. split; [intros k Hk m Hm; auto|]. split; auto. intros n s [].
  - now rewrite w_ev_cache_id.
  - intros n s I. now apply sorted_In.
  - rewrite A. cbn [ubind]. exists c', evs'. split; [|auto]. rewrite Rplus_0_l. fold (total_density ph (u_src st) j). rewrite Hc. unfold log_density.
    destruct (Rltb 0 (total_density ph (u_src st) j)); auto. simpl. destruct (length (u_src st) =? 1); auto.
Qed.
Definition evs_part (st : ust) (js : list nat) (evs' : list uev) : Prop :=
  evs_ok (u_src st) evs' /\ (forall k, k < nev -> keeps (u_free st) (nth k (u_ev st) ev_zero) (nth k evs' ev_zero)) /\
  (forall k n s, In k js -> In (n, s) (u_src st) -> In n (u_free st) -> mfind n (ev_flux (nth k evs' ev_zero)) = Some (density ph n s k)).
Lemma evs_part_step st0 st1 js j evs' : sorted (u_src st0) -> u_src st1 = u_src st0 -> u_free st1 = u_free st0 -> evs_part st0 js (u_ev st1) -> j < nev -> Forall (fun k => k < nev) js -> ev_part st1 j (u_src st1) evs' -> evs_part st0 (js ++ [j]) evs'.
Proof.
  intros Ss Es Ef (P1 & P2 & P3) Hj Hjs (Q1 & Q2 & Q3 & Q4). rewrite Es in *. rewrite Ef in *. split; [exact Q1|]. split.
  - intros k Hk n Hn. rewrite Q2 by auto. now apply P2.
  - intros k n s I In_s If. destruct (Nat.eq_dec k j) as [->|Hk]; [now apply Q4|].
    apply in_app_iff in I as [I|[I|[]]]; [|congruence]. rewrite Q3; auto. rewrite Forall_forall in Hjs. now apply Hjs.
Qed.
Lemma data_sum_ok st0 : uc_catch g = false -> sorted (u_src st0) -> forall js done st,
  Forall (fun k => k < nev) (done ++ js) ->
  evs_part st0 (filter (in_bounds ph (u_eb st0)) done) (u_ev st) -> cache_ok (u_cache st) (u_src st0) -> st = w_acc (w_ev (w_cache st0 (u_cache st)) (u_ev st)) (u_acc st) ->
  exists c' evs', data_sum ph g st js = (w_acc (w_ev (w_cache st0 c') evs') (u_acc st + Rsum (map (log_density ph (u_src st0)) (filter (in_bounds ph (u_eb st0)) js)))%R, Ok tt) /\
    cache_ok c' (u_src st0) /\ evs_part st0 (filter (in_bounds ph (u_eb st0)) (done ++ js)) evs'.
Proof.
  intros Hc Ss. induction js as [|j js IH]; intros done st Hjs EP C Est; cbn [data_sum].
  - exists (u_cache st), (u_ev st). rewrite app_nil_r. split; [|auto]. rewrite Est at 1. f_equal. unfold w_acc. simpl. f_equal. unfold Rsum. simpl. lra.
  - assert (Hj : j < nev). { rewrite Forall_forall in Hjs. apply Hjs, in_app_iff. right; now left. }
    assert (Hd : Forall (fun k => k < nev) (filter (in_bounds ph (u_eb st0)) done)).
    { rewrite Forall_forall in *. intros x I. apply filter_In in I as [I _]. apply Hjs, in_app_iff; now left. }
    assert (Sel : selected ph st j = in_bounds ph (u_eb st0) j). { rewrite Est. reflexivity. }
    rewrite Sel. simpl filter. destruct (in_bounds ph (u_eb st0) j) eqn:Eb.
    + assert (Es : u_src st = u_src st0) by (rewrite Est; reflexivity). assert (Ef : u_free st = u_free st0) by (rewrite Est; reflexivity).
      destruct (logSourceModel_ok st j Hc Hj) as (c1 & e1 & A & B & D). rewrite Es; auto. rewrite Es; apply EP. rewrite Es; auto.
      rewrite A. cbn [ubind]. rewrite Es in B.
      destruct (IH (done ++ [j]) (w_acc (w_ev (w_cache st c1) e1) (u_acc (w_ev (w_cache st c1) e1) + log_density ph (u_src st) j)%R)) as (c' & evs' & Er & Cr & EPr).
      * rewrite <- app_assoc. exact Hjs.
      * rewrite filter_app. simpl. rewrite Eb. simpl. eapply evs_part_step; [exact Ss|exact Es|exact Ef|exact EP|exact Hj|exact Hd|exact D].
      * exact B.
      * simpl. rewrite Est. reflexivity.
      * exists c', evs'. rewrite Er. split; [|split; [exact Cr|]]. f_equal. f_equal. rewrite Es. simpl. unfold Rsum. simpl. lra.
        rewrite <- app_assoc in EPr. exact EPr.
    + destruct (IH (done ++ [j]) st) as (c' & evs' & Er & Cr & EPr); auto.
      * rewrite <- app_assoc. exact Hjs.
      * rewrite filter_app. simpl. rewrite Eb, app_nil_r. exact EP.
      * exists c', evs'. rewrite Er. split; auto. split; auto. rewrite <- app_assoc in EPr. exact EPr.
Qed.
End Like.

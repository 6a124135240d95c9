From Coq Require Import Reals Lra Permutation.
From Verif Require Import Base SMap BinnedModel AccumModel AccumProofs BinnedSpec SmapNpred.
Local Open Scope outcome_scope.

(** ** Small facts *)
Lemma existsb_In n l : existsb (Z.eqb n) l = true <-> In n l.
Proof.
  rewrite existsb_exists. split; [intros [x [H E]]; apply Z.eqb_eq in E; subst; auto|intros H; exists n; split; auto; apply Z.eqb_refl].
Qed.
Lemma existsb_nIn n l : existsb (Z.eqb n) l = false <-> ~ In n l.
Proof. rewrite <- existsb_In. destruct (existsb (Z.eqb n) l); split; congruence. Qed.
Lemma count_in_0 l n : count_in l n = 0 <-> ~ In n l.
Proof.
  unfold count_in. split.
  - intros H I. assert (In n (filter (Z.eqb n) l)) as F by (apply filter_In; split; auto; apply Z.eqb_refl).
    destruct (filter (Z.eqb n) l); [destruct F|discriminate].
  - intros H. destruct (filter (Z.eqb n) l) as [|x f] eqn:E; auto.
    assert (In x (filter (Z.eqb n) l)) as F by (rewrite E; left; auto). apply filter_In in F as [F1 F2]. apply Z.eqb_eq in F2. subst. contradiction.
Qed.
Lemma count_in_1 l n : NoDup l -> In n l -> count_in l n = 1.
Proof.
  unfold count_in. induction l as [|x l IH]; intros N I; [destruct I|]. inversion N; subst. simpl. destruct (Z.eqb_spec n x).
  - subst. simpl. f_equal. apply count_in_0 in H1. unfold count_in in H1. auto.
  - destruct I as [I|I]; [congruence|]. auto.
Qed.
Lemma count_in_1_In l n : count_in l n = 1 -> In n l.
Proof.
  intros H. destruct (in_dec Z.eq_dec n l) as [|N]; auto. apply count_in_0 in N. lia.
Qed.
Lemma list_eqb_spec a b : list_eqb a b = true <-> a = b.
Proof.
  unfold list_eqb. rewrite andb_true_iff, Nat.eqb_eq. split.
  - revert b. induction a as [|x a IH]; intros [|y b] [H1 H2]; try discriminate; auto. simpl in *. apply andb_true_iff in H2 as [H2 H3].
    apply Z.eqb_eq in H2. f_equal; auto.
  - intros <-. split; auto. induction a as [|x a IH]; simpl; auto. rewrite Z.eqb_refl. auto.
Qed.
Lemma vacc_length s : forall b a, length (vacc s b a) = length b.
Proof. induction b as [|x b IH]; intros [|y a]; simpl; auto. Qed.
Lemma vacc_nth s : forall b a j, length a = length b -> nth j (vacc s b a) 0%R = (nth j b 0 + s * nth j a 0)%R.
Proof.
  induction b as [|x b IH]; intros [|y a] j H; try discriminate.
  - simpl. destruct j; lra.
  - destruct j; simpl; auto.
Qed.
Lemma nth_repeat0 n j : nth j (repeat 0%R n) 0%R = 0%R.
Proof. revert j. induction n; intros [|j]; simpl; auto. Qed.
Lemma remove_first_spec n l : NoDup l -> NoDup (remove_first n l) /\ forall x, In x (remove_first n l) <-> In x l /\ x <> n.
Proof.
  induction l as [|y l IH]; simpl; intros N; [split; [constructor|intuition]|]. inversion N; subst. destruct (IH H2) as [A B]. destruct (Z.eqb_spec n y).
  - subst. split; auto. intros x. split; [intros I; split; auto; intros ->; contradiction|intros [[I|I] D]; [congruence|auto]].
  - split; [constructor; auto; intros I; apply B in I; tauto|]. intros x. simpl. rewrite B. split; [intros [I|I]; [subst; auto|tauto]|intros [[I|I] D]; auto].
Qed.
Lemma remove_first_perm n l : In n l -> Permutation l (n :: remove_first n l).
Proof.
  induction l as [|y l IH]; simpl; [tauto|]. intros [->|I].
  - rewrite Z.eqb_refl. auto.
  - destruct (Z.eqb_spec n y); [subst; auto|]. rewrite perm_swap. constructor. auto.
Qed.
Lemma sum_bins v a n : (forall k, a <= k < a + n -> k < length v) ->
  forall t, mfold (fun t k => x <- vec_get v k ;; Ok (t + x)%R) (seq a n) t = Ok (t + Rsum (map (fun k => nth k v 0%R) (seq a n)))%R.
Proof.
  revert a. induction n as [|n IH]; intros a H t; simpl; [f_equal; unfold Rsum; simpl; lra|].
  rewrite (vec_get_ok v a 0%R) by (apply H; lia). cbn [obind]. rewrite IH by (intros; apply H; lia). unfold Rsum. simpl. f_equal. lra.
Qed.

Section P.
Context (ph : physics) (g : config) (nfilled nbins : nat) (first : list nat) (image_of : Z -> Z).
Context (SZ : sizes_ok ph nfilled nbins) (NC : no_corrections ph (g_ev g)) (OF : offsets_ok first nfilled nbins).
Notation gev := (g_ev g).
Definition C (n : Z) (p : list Z) (j : nat) : R := nth j (ph_cnt ph gev (image_of n) p (image_of n, p)) 0%R.
Definition N (n : Z) (p : list Z) (j : nat) : R := nth j (ph_npr ph gev (image_of n) p (image_of n, p)) 0%R.

Definition src_ok (n : Z) (s : src) : Prop := s_img s = image_of n /\ s_par s <> [].
Definition mok (n : Z) (m : cmap) : Prop :=
  (c_data m = None -> c_cleared m = true) /\ (forall i, c_data m = Some i -> i = image_of n) /\ (forall i, c_npd m = Some i -> i = image_of n) /\ c_ev m = gev.
(** All fields but the maps. *)
Definition same (a b : bl) : Prop :=
  b_src a = b_src b /\ b_fix a = b_fix b /\ b_cnt a = b_cnt b /\ b_fs a = b_fs b /\ b_upd a = b_upd b /\ b_model a = b_model b /\ b_cur a = b_cur b /\
  b_ev a = b_ev b /\ b_kmin a = b_kmin b /\ b_kmax a = b_kmax b.
Definition MI (st : bl) (held : Z -> list Z) : Prop :=
  sorted (b_maps st) /\ forall n m, mfind n (b_maps st) = Some m -> mok n m /\ (In n (b_fix st) -> c_latched m = held n \/ c_latched m = []).

Lemma same_refl a : same a a. Proof. repeat split. Qed.
Lemma same_trans a b c : same a b -> same b c -> same a c.
Proof. unfold same. intros H K. decompose [and] H. decompose [and] K. repeat split; congruence. Qed.
Lemma same_put a b n m : same a b -> same a (put_map b n m).
Proof. intros H. exact H. Qed.

Lemma MI_put st held n m : MI st held -> mok n m -> (In n (b_fix st) -> c_latched m = held n \/ c_latched m = []) -> MI (put_map st n m) held.
Proof.
  intros [S H] Hm L. split; [apply sorted_insert, S|]. intros x y E. simpl in *. destruct (Z.eq_dec x n) as [->|D].
  - rewrite mfind_insert_eq in E. injection E as <-. auto.
  - rewrite mfind_insert_neq in E by auto. auto.
Qed.

Section OneMap.
Context (n : Z) (s : src) (OK : src_ok n s).
Lemma mok_make m : mok n m -> mok n (make_model m s).
Proof. destruct OK as [E _]. intros (a & b & c & d). unfold mok. simpl. repeat split; auto; try discriminate; congruence. Qed.
Lemma mok_new save : mok n (new_map gev save s).
Proof. destruct OK as [E _]. unfold mok. simpl. repeat split; auto; try discriminate; congruence. Qed.
Lemma mok_reload m : mok n m -> mok n (reloadIfCleared m s) /\ c_data (reloadIfCleared m s) <> None.
Proof.
  destruct OK as [E _]. intros (a & b & c & d). unfold reloadIfCleared. destruct (c_cleared m) eqn:Ec.
  - split; [|discriminate]. unfold mok. simpl. repeat split; auto; try discriminate; congruence.
  - split; [unfold mok; rewrite Ec; repeat split; auto|]. intros H. apply a in H. congruence.
Qed.
Lemma lat_reload m : c_latched (reloadIfCleared m s) = c_latched m.
Proof. unfold reloadIfCleared. destruct (c_cleared m); auto. Qed.
Lemma spec_reload m : c_spec m = Some (s_par s) -> c_spec (reloadIfCleared m s) = Some (s_par s).
Proof. unfold reloadIfCleared. destruct (c_cleared m); auto. Qed.
Lemma mok_save m v : mok n m -> mok n (setSaveModel m s v) /\ c_latched (setSaveModel m s v) = c_latched m.
Proof.
  intros H. unfold setSaveModel.
  set (m' := mk_cm (c_src m) (c_data m) (c_npd m) (c_cleared m) (c_local m) v (c_ev m) (c_spec m) (c_latched m) (c_drm m)).
  assert (mok n m') as H' by exact H. destruct v; [|auto]. split; [apply mok_reload, H'|rewrite lat_reload; auto].
Qed.
Lemma mok_clear m f : mok n m -> mok n (clear_model m f) /\ c_latched (clear_model m f) = c_latched m /\ c_spec (clear_model m f) = c_spec m.
Proof.
  intros (a & b & c & d). unfold clear_model. destruct (f || _); [|repeat split; auto]. unfold mok. simpl. repeat split; auto; discriminate.
Qed.
Lemma mok_setSource m : mok n m -> mok n (setSource m s) /\ c_latched (setSource m s) = c_latched m.
Proof.
  intros H. unfold setSource. destruct (c_src m =? s_id s).
  - destruct (c_save m && _); [|auto]. split; auto. apply mok_make, H.
  - destruct H as (a & b & c & d). split; auto. unfold mok. simpl. repeat split; auto. discriminate.
Qed.
Lemma mok_spec m l : mok n m -> mok n (setSpectralValues m s l).
Proof. intros H. exact H. Qed.
Lemma mok_npreds m : mok n m -> mok n (npreds m s) /\ c_latched (npreds m s) = c_latched m /\ c_npd (npreds m s) = Some (image_of n) /\
  (c_spec m = Some (s_par s) -> c_spec (npreds m s) = Some (s_par s)).
Proof.
  intros H. unfold npreds. destruct (c_npd m) as [i|] eqn:E.
  - split; auto. split; auto. split; auto. rewrite E. f_equal. destruct H as (_ & _ & X & _). auto.
  - destruct (c_data m) as [i|] eqn:D.
    + destruct H as (a & b & c & d). assert (i = image_of n) as -> by (apply b; auto). unfold mok. simpl. repeat split; auto; try congruence.
    + split; [apply mok_make, H|]. simpl. repeat split; auto. f_equal. apply OK.
Qed.
Lemma mok_drm m : mok n m -> mok n (update_drm m s) /\ c_latched (update_drm m s) = c_latched m /\ c_drm (update_drm m s) = (image_of n, s_par s).
Proof.
  intros H. unfold update_drm. destruct (mok_npreds _ (mok_spec m false H)) as (A & B & D & F). cbv zeta. rewrite D. simpl.
  split; [|split; auto]. destruct A as (a & b & c & d). unfold mok. simpl. repeat split; auto; try congruence.
Qed.

(** SourceMapCache::getSourceMap. *)
Lemma getSourceMap_ok st held : MI st held -> b_ev st = gev ->
  let r := getSourceMap g st n s in
  same st (fst r) /\ MI (fst r) held /\ mok n (snd r) /\ (In n (b_fix st) -> c_latched (snd r) = held n \/ c_latched (snd r) = []) /\
  mfind n (b_maps (fst r)) = Some (snd r).
Proof.
  intros H EV. unfold getSourceMap. cbv zeta. simpl fst. simpl snd.
  set (m := match mfind n (b_maps st) with Some m => setSource m s | None => new_map (b_ev st) (g_saveall g) s end).
  assert (mok n m /\ (In n (b_fix st) -> c_latched m = held n \/ c_latched m = [])) as [A B].
  { unfold m. destruct (mfind n (b_maps st)) as [m0|] eqn:E.
    - destruct H as [_ H]. destruct (H _ _ E) as [A B]. destruct (mok_setSource m0 A) as [D F]. split; auto. rewrite F. auto.
    - rewrite EV. split; [apply mok_new|]. simpl. auto. }
  split; [repeat split|]. split; [apply MI_put; auto|]. split; [auto|]. split; [auto|]. simpl. apply mfind_insert_eq.
Qed.

Lemma cnt_len ev i p q : length (ph_cnt ph ev i p q) = nfilled. Proof. apply SZ. Qed.
Lemma npr_len ev i p q : length (ph_npr ph ev i p q) = nbins. Proof. apply SZ. Qed.

Lemma addSourceCounts_ok st buf m sub latch : mok n m -> length buf = nfilled ->
  exists m' buf', addSourceCounts ph g nfilled st buf n s m sub latch = Done (put_map st n m') (buf', m') /\ mok n m' /\
    c_latched m' = (if latch then s_par s else c_latched m) /\ c_spec m' = Some (s_par s) /\
    length buf' = nfilled /\ forall j, nth j buf' 0%R = (nth j buf 0 + sign_of sub * C n (s_par s) j)%R.
Proof.
  intros H L. unfold addSourceCounts. rewrite L, Nat.eqb_refl. simpl negb. cbv iota zeta.
  destruct (mok_reload m H) as [A B]. set (m1 := setSpectralValues (reloadIfCleared m s) s latch).
  assert (mok n m1) as A1 by exact A. assert (c_data m1 = c_data (reloadIfCleared m s)) as D by reflexivity.
  destruct (c_data m1) as [i|] eqn:Ei; [|exfalso; apply B; auto].
  assert (i = image_of n) as -> by (destruct A1 as (_ & X & _); auto).
  assert (c_ev m1 = gev) as Ev by (destruct A1 as (_ & _ & _ & X); auto).
  assert (c_latched m1 = if latch then s_par s else c_latched m) as Lm by (unfold m1; simpl; rewrite lat_reload; auto).
  assert (c_spec m1 = Some (s_par s)) as Sm by reflexivity.
  rewrite Ev. set (buf' := vacc _ _ _).
  assert (length buf' = nfilled) as L' by (unfold buf'; rewrite vacc_length; auto).
  assert (forall j, nth j buf' 0%R = (nth j buf 0 + sign_of sub * C n (s_par s) j)%R) as Hb.
  { intros j. unfold buf'. rewrite vacc_nth by (rewrite cnt_len; auto). unfold C. rewrite (proj1 NC (image_of n) (s_par s) (c_drm m1) (image_of n, s_par s)). auto. }
  change (c_save (reloadIfCleared m s)) with (c_save m1). destruct (negb (c_save m1) && existsb (Z.eqb n) (b_fix st)).
  - destruct (mok_clear m1 (g_dlf g) A1) as (P & Q & T). exists (clear_model m1 (g_dlf g)), buf'. split; [auto|]. split; [auto|]. rewrite Q, T. auto.
  - exists m1, buf'. split; [auto|]. auto.
Qed.
Lemma addFixedNpreds_ok st m sub : mok n m -> c_spec m = Some (s_par s) -> length (b_fs st) = nbins ->
  exists m' fs', addFixedNpreds ph nbins st n s m sub = Done (put_map (with_fs st fs') n m') m' /\ mok n m' /\
    c_latched m' = c_latched m /\ length fs' = nbins /\ forall k, nth k fs' 0%R = (nth k (b_fs st) 0 + sign_of sub * N n (s_par s) k)%R.
Proof.
  intros H S L. unfold addFixedNpreds. rewrite L, Nat.eqb_refl. simpl negb. cbv iota zeta.
  destruct (mok_npreds m H) as (A & B & D & F). specialize (F S). rewrite F. rewrite D, F.
  assert (c_ev (npreds m s) = gev) as -> by (destruct A as (_ & _ & _ & X); auto).
  eexists _, _. split; [reflexivity|]. split; [auto|]. split; [auto|]. split; [rewrite vacc_length; auto|].
  intros k. rewrite vacc_nth by (rewrite npr_len; auto). unfold N. rewrite (proj2 NC (image_of n) (s_par s) (c_drm (npreds m s)) (image_of n, s_par s)). auto.
Qed.
End OneMap.

(** ** The invariant *)
Definition sumf (f : Z -> list Z -> nat -> R) (held : Z -> list Z) (l : list Z) (j : nat) : R := Rsum (map (fun n => f n (held n) j) l).
Record Inv (touched : list Z) (st : bl) (held : Z -> list Z) : Prop := {
  i_sorted : sorted (b_src st);
  i_src : forall n s, mfind n (b_src st) = Some s -> src_ok n s;
  i_maps : MI st held;
  i_nodup : NoDup (b_fix st);
  i_fix : forall n, In n (b_fix st) -> exists s, mfind n (b_src st) = Some s /\ (~ In n touched -> s_free s = false /\ s_par s = held n);
  i_cnt : length (b_cnt st) = nfilled /\ forall j, nth j (b_cnt st) 0%R = sumf C held (b_fix st) j;
  i_fs : length (b_fs st) = nbins /\ forall k, nth k (b_fs st) 0%R = sumf N held (b_fix st) k;
  i_upd : b_upd st = true; i_ev : b_ev st = gev; i_kl : b_kmin st <= b_kmax st /\ b_kmax st <= nbins }.

Definition hset (held : Z -> list Z) (n : Z) (p : list Z) : Z -> list Z := fun x => if (x =? n)%Z then p else held x.
Lemma hset_eq held n p : hset held n p n = p. Proof. unfold hset. now rewrite Z.eqb_refl. Qed.
Lemma hset_neq held n p x : x <> n -> hset held n p x = held x.
Proof. unfold hset. destruct (Z.eqb_spec x n); [contradiction|auto]. Qed.
Lemma sumf_hset f held n p l j : ~ In n l -> sumf f (hset held n p) l j = sumf f held l j.
Proof.
  intros H. unfold sumf. f_equal. apply map_ext_in. intros x I. rewrite hset_neq; auto. intros ->. contradiction.
Qed.
Lemma sumf_snoc f held l n j : sumf f held (l ++ [n]) j = (sumf f held l j + f n (held n) j)%R.
Proof. unfold sumf. rewrite map_app, Rsum_app. unfold Rsum. simpl. lra. Qed.

(** addFixedSource: what it needs is only the maps and the two buffers. *)
Lemma addFixedSource_ok st held n s : MI st held -> b_ev st = gev -> mfind n (b_src st) = Some s -> src_ok n s -> ~ In n (b_fix st) ->
  length (b_cnt st) = nfilled -> (forall j, nth j (b_cnt st) 0%R = sumf C held (b_fix st) j) ->
  length (b_fs st) = nbins -> (forall k, nth k (b_fs st) 0%R = sumf N held (b_fix st) k) ->
  exists st', addFixedSource ph g nfilled nbins st n = Done st' tt /\ MI st' (hset held n (s_par s)) /\
    b_src st' = b_src st /\ b_fix st' = b_fix st ++ [n] /\ b_upd st' = b_upd st /\ b_ev st' = b_ev st /\ b_kmin st' = b_kmin st /\ b_kmax st' = b_kmax st /\ b_model st' = b_model st /\ b_cur st' = b_cur st /\
    length (b_cnt st') = nfilled /\ (forall j, nth j (b_cnt st') 0%R = sumf C (hset held n (s_par s)) (b_fix st') j) /\
    length (b_fs st') = nbins /\ (forall k, nth k (b_fs st') 0%R = sumf N (hset held n (s_par s)) (b_fix st') k).
Proof.
  intros M EV Es OK NI L1 H1 L2 H2. unfold addFixedSource. rewrite Es.
  apply existsb_nIn in NI as NI'. rewrite NI'. cbv zeta.
  set (held' := hset held n (s_par s)).
  assert (forall x, In x (b_fix st) -> held' x = held x) as Hh by (intros x I; apply hset_neq; intros ->; contradiction).
  (* the maps of the other sources *)
  set (others st := sorted (b_maps st) /\ forall x m, mfind x (b_maps st) = Some m -> mok x m /\ (x <> n -> In x (b_fix st) -> c_latched m = held' x \/ c_latched m = [])).
  set (st1 := with_fix st (b_fix st ++ [n])).
  assert (others st1) as O1.
  { destruct M as [S M]. split; [exact S|]. intros x m E. simpl in E. destruct (M _ _ E) as [A B]. split; auto. intros D I. simpl in I.
    apply in_app_iff in I as [I|[I|[]]]; [|congruence]. rewrite Hh by auto. auto. }
  assert (forall st m, others st -> mok n m -> others (put_map st n m)) as Oput.
  { intros st0 m [S H] Hm. split; [apply sorted_insert, S|]. intros x y E. simpl in *. destruct (Z.eq_dec x n) as [->|D].
    - rewrite mfind_insert_eq in E. injection E as <-. split; auto. congruence.
    - rewrite mfind_insert_neq in E by auto. auto. }
  assert (exists m, getSourceMap g st1 n s = (put_map st1 n m, m) /\ mok n m) as (m0 & -> & A0).
  { unfold getSourceMap. eexists. split; [reflexivity|]. simpl. destruct (mfind n (b_maps st)) as [m|] eqn:E.
    - apply mok_setSource; auto. apply M in E. tauto.
    - rewrite EV. apply mok_new, OK. }
  assert (exists m, mok n m /\ (if g_saveall g then setSaveModel (reloadIfCleared m0 s) s true else reloadIfCleared m0 s) = m) as (m1 & A1 & ->).
  { eexists. split; [|reflexivity]. destruct (g_saveall g); [apply mok_save; auto|]; apply mok_reload; auto. }
  destruct (addSourceCounts_ok n s OK (put_map (put_map st1 n m0) n m1) (b_cnt st) m1 false true A1 L1) as (m2 & buf & E & A2 & Q2 & P2 & L3 & H3).
  change (b_cnt (put_map st1 n m0)) with (b_cnt st). rewrite E. cbn [rbind].
  set (m3 := reloadIfCleared m2 s). assert (mok n m3) as A3 by (apply mok_reload; auto).
  assert (c_spec m3 = Some (s_par s)) as P3 by (apply spec_reload; auto). assert (c_latched m3 = s_par s) as Q3 by (unfold m3; rewrite lat_reload; auto).
  set (st2 := put_map (with_cnt (put_map (put_map (put_map st1 n m0) n m1) n m2) buf) n m3).
  destruct (addFixedNpreds_ok n s OK st2 m3 false A3 P3 L2) as (m4 & fs & E4 & A4 & Q4 & L4 & H4). rewrite E4. cbn [rbind].
  set (m5 := if c_save m4 then m4 else clear_model m4 (g_dlf g)).
  assert (mok n m5 /\ c_latched m5 = s_par s) as [A5 Q5].
  { unfold m5. destruct (c_save m4); [split; [auto|congruence]|]. destruct (mok_clear n m4 (g_dlf g) A4) as (X & Y & Z). split; [auto|congruence]. }
  eexists. split; [reflexivity|].
  assert (others (put_map (put_map (with_fs st2 fs) n m4) n m5)) as [S5 O5].
  { apply Oput; auto. apply Oput; auto. change (others (put_map (put_map (put_map (put_map st1 n m0) n m1) n m2) n m3)). repeat (apply Oput; auto). }
  split.
  { split; [exact S5|]. intros x m Ex. destruct (O5 _ _ Ex) as [X Y]. split; auto. intros I. destruct (Z.eq_dec x n) as [->|D]; [|auto].
    simpl in Ex. rewrite mfind_insert_eq in Ex. injection Ex as <-. left. unfold held'. rewrite hset_eq. auto. }
  simpl b_src. simpl b_fix. simpl b_cnt. simpl b_fs.
  repeat (split; [reflexivity|]). split; [exact L3|]. split.
  { intros j. rewrite sumf_snoc. unfold held' at 1. rewrite sumf_hset, <- H1, H3 by auto. unfold held'. rewrite hset_eq. simpl sign_of. lra. }
  split; [exact L4|].
  intros k. rewrite sumf_snoc. unfold held' at 1. rewrite sumf_hset, <- H2, H4 by auto. unfold held'. rewrite hset_eq. simpl sign_of. change (b_fs st2) with (b_fs st). lra.
Qed.

Definition fixed_names (l : list (Z * src)) : list Z := map fst (filter (fun ns => negb (s_free (snd ns))) l).
Lemma build_loop_ok srcs : sorted srcs -> (forall n s, mfind n srcs = Some s -> src_ok n s) ->
  forall l st held, b_src st = srcs -> incl l srcs -> NoDup (map fst l) -> MI st held -> b_ev st = gev ->
  (forall n, In n (map fst l) -> ~ In n (b_fix st)) ->
  length (b_cnt st) = nfilled -> (forall j, nth j (b_cnt st) 0%R = sumf C held (b_fix st) j) ->
  length (b_fs st) = nbins -> (forall k, nth k (b_fs st) 0%R = sumf N held (b_fix st) k) ->
  exists st' held', build_loop ph g nfilled nbins st l = Done st' tt /\ MI st' held' /\
    b_src st' = srcs /\ b_fix st' = b_fix st ++ fixed_names l /\ b_upd st' = b_upd st /\ b_ev st' = b_ev st /\ b_kmin st' = b_kmin st /\ b_kmax st' = b_kmax st /\ b_model st' = b_model st /\ b_cur st' = b_cur st /\
    (forall n, In n (b_fix st) -> held' n = held n) /\ (forall n s, In (n, s) l -> s_free s = false -> held' n = s_par s) /\
    length (b_cnt st') = nfilled /\ (forall j, nth j (b_cnt st') 0%R = sumf C held' (b_fix st') j) /\
    length (b_fs st') = nbins /\ (forall k, nth k (b_fs st') 0%R = sumf N held' (b_fix st') k).
Proof.
  intros SS SO. induction l as [|[n s] l IH]; intros st held Es Hi ND M EV Hd L1 H1 L2 H2.
  - exists st, held. simpl. rewrite app_nil_r. repeat (split; auto). intros n s [].
  - assert (mfind n srcs = Some s) as Ef by (apply mfind_In; auto; apply Hi; left; auto).
    assert (src_ok n s) as OK by (apply SO; auto).
    simpl in ND. apply NoDup_cons_iff in ND as [N1 N2]. subst srcs.
    assert (incl l (b_src st)) as Hi' by (intros x I; apply Hi; right; auto).
    cbn [build_loop]. destruct (s_free s) eqn:Efr.
    + destruct (getSourceMap_ok n s OK st held M EV) as (A & B & _). set (st1 := fst (getSourceMap g st n s)) in *.
      destruct A as (a1 & a2 & a3 & a4 & a5 & a6 & a7 & a8 & a9 & a10).
      assert (b_src st1 = b_src st) as Es1 by auto.
      assert (forall x, In x (map fst l) -> ~ In x (b_fix st1)) as Hd1 by (intros x I; rewrite <- a2; apply Hd; right; auto).
      assert (forall j, nth j (b_cnt st1) 0%R = sumf C held (b_fix st1) j) as H1' by (intros j; rewrite <- a3, <- a2; apply H1).
      assert (forall j, nth j (b_fs st1) 0%R = sumf N held (b_fix st1) j) as H2' by (intros j; rewrite <- a4, <- a2; apply H2).
      destruct (IH st1 held Es1 Hi' N2 B ltac:(congruence) Hd1 ltac:(congruence) H1' ltac:(congruence) H2') as (st' & held' & X).
      exists st', held'. destruct X as (x0 & x1 & x2 & x3 & x4 & x5 & x6 & x7 & x8 & x9 & x10 & x11 & x12 & x13 & x14 & x15).
      split; [exact x0|]. split; [auto|]. split; [auto|]. split; [unfold fixed_names; simpl; rewrite Efr; simpl; rewrite a2; exact x3|].
      split; [congruence|]. split; [congruence|]. split; [congruence|]. split; [congruence|]. split; [congruence|]. split; [congruence|]. split; [intros y I; apply x10; rewrite <- a2; auto|]. split; [|auto].
      intros y t [E|I] F; [injection E as -> ->; congruence|eauto].
    + assert (~ In n (b_fix st)) as NI by (apply Hd; left; auto).
      destruct (addFixedSource_ok st held n s M EV Ef OK NI L1 H1 L2 H2) as (st1 & E & B & a1 & a2 & a3 & a4 & a5 & a6 & a7 & a8 & a9 & a10 & a11 & a12).
      rewrite E. cbn [rbind].
      assert (forall x, In x (map fst l) -> ~ In x (b_fix st1)) as Hd1.
      { intros x I. rewrite a2, in_app_iff. intros [J|[J|[]]]; [apply (Hd x); [right; auto|auto]|subst; contradiction]. }
      destruct (IH st1 (hset held n (s_par s)) a1 Hi' N2 B ltac:(congruence) Hd1 a9 a10 a11 a12) as (st' & held' & X).
      exists st', held'. destruct X as (x0 & x1 & x2 & x3 & x4 & x5 & x6 & x7 & x8 & x9 & x10 & x11 & x12 & x13 & x14 & x15).
      split; [exact x0|]. split; [auto|]. split; [auto|]. split; [rewrite x3, a2; unfold fixed_names; simpl; rewrite Efr; simpl; rewrite <- app_assoc; reflexivity|].
      split; [congruence|]. split; [congruence|]. split; [congruence|]. split; [congruence|]. split; [congruence|]. split; [congruence|].
      split. { intros y I. rewrite x10 by (rewrite a2, in_app_iff; auto). apply hset_neq. intros ->. contradiction. }
      split; [|auto]. intros y t [Ey|I] F; [injection Ey as -> ->|eauto]. rewrite x10 by (rewrite a2, in_app_iff; simpl; auto). apply hset_eq.
Qed.

(** What holds right after the fixed model was found to be up to date or rebuilt. *)
Record Fresh (st : bl) (held : Z -> list Z) : Prop := {
  f_inv : Inv [] st held;
  f_fix : forall n s, mfind n (b_src st) = Some s -> (In n (b_fix st) <-> s_free s = false) }.

Lemma sorted_nodup {V} (m : SMap.smap V) : sorted m -> NoDup (map fst m).
Proof.
  unfold sorted, mkeys. induction (map fst m) as [|x l IH]; intros H; [constructor|]. inversion H; subst. constructor; auto.
  intros I. rewrite Forall_forall in H3. specialize (H3 _ I). lia.
Qed.
Lemma fixed_names_in l n : NoDup (map fst l) -> In n (fixed_names l) <-> exists s, In (n, s) l /\ s_free s = false.
Proof.
  intros _. unfold fixed_names. rewrite in_map_iff. split.
  - intros [[x s] [<- I]]. apply filter_In in I as [I F]. simpl in *. exists s. split; auto. destruct (s_free s); auto; discriminate.
  - intros [s [I F]]. exists (n, s). split; auto. apply filter_In. split; auto. simpl. now rewrite F.
Qed.
Lemma fixed_names_nodup l : NoDup (map fst l) -> NoDup (fixed_names l).
Proof.
  unfold fixed_names. induction l as [|[x s] l IH]; simpl; intros H; [constructor|]. inversion H; subst. destruct (s_free s); simpl; auto.
  constructor; auto. intros I. apply H2. apply in_map_iff in I as [y [E I]]. apply filter_In in I as [I _]. rewrite <- E. apply in_map. auto.
Qed.

Lemma build_ok touched st held : Inv touched st held ->
  exists st' held', buildFixedModelWts ph g nfilled nbins st = Done st' tt /\ Fresh st' held' /\ b_src st' = b_src st /\
    b_kmin st' = b_kmin st /\ b_kmax st' = b_kmax st /\ b_model st' = b_model st /\ b_cur st' = b_cur st.
Proof.
  intros I. unfold buildFixedModelWts. set (st0 := with_fs _ _).
  assert (MI st0 (fun _ => [])) as M0.
  { destruct (i_maps _ _ _ I) as [S M]. split; [exact S|]. intros n m E. split; [apply (M n m E)|]. simpl. tauto. }
  assert (NoDup (map fst (b_src st))) as ND by (apply sorted_nodup, (i_sorted _ _ _ I)).
  destruct (build_loop_ok (b_src st) (i_sorted _ _ _ I) (i_src _ _ _ I) (b_src st) st0 (fun _ => [])) as (st' & held' & E & X); auto.
  { apply incl_refl. } { apply I. } { apply repeat_length. }
  { intros j. unfold sumf. simpl. unfold Rsum. simpl. apply nth_repeat0. } { apply repeat_length. }
  { intros j. unfold sumf. simpl. unfold Rsum. simpl. apply nth_repeat0. }
  destruct X as (x1 & x2 & x3 & x4 & x5 & x6 & x7 & x8 & x9 & x10 & x11 & x12 & x13 & x14 & x15).
  exists st', held'. split; [exact E|].
  assert (b_fix st' = fixed_names (b_src st)) as Ef by (rewrite x3; reflexivity).
  split; [|repeat split; auto]. split; [split|].
  - rewrite x2. apply I.
  - rewrite x2. apply I.
  - exact x1.
  - rewrite Ef. apply fixed_names_nodup, ND.
  - intros n J. rewrite Ef in J. apply fixed_names_in in J as [s [J F]]; auto. exists s. rewrite x2. split; [apply mfind_In; auto; apply I|].
    intros _. split; auto. symmetry. eapply x11; eauto.
  - auto.
  - auto.
  - rewrite x4. apply I.
  - rewrite x5. apply I.
  - rewrite x6, x7. apply I.
  - intros n s J. rewrite x2 in J. rewrite Ef, fixed_names_in by auto. split.
    + intros [t [K F]]. apply mfind_In in K; [congruence|apply I].
    + intros F. exists s. split; auto. apply mfind_in. auto.
Qed.

(** ** fixedModelUpdated *)
Lemma save_map_ok n s st held : src_ok n s -> MI st held -> b_ev st = gev -> same st (save_map g st n s) /\ MI (save_map g st n s) held.
Proof.
  intros OK M EV. unfold save_map. destruct (getSourceMap_ok n s OK st held M EV) as (A & B & D & F & _).
  destruct (getSourceMap g st n s) as [st1 m]. simpl fst in *. simpl snd in *. destruct (mok_save n s OK m true D) as [X Y].
  split; [exact A|]. apply MI_put; [exact B|exact X|]. intros I. rewrite Y. apply F. destruct A as (_ & -> & _). auto.
Qed.
Lemma check_listed_ok srcs : sorted srcs -> (forall n s, mfind n srcs = Some s -> src_ok n s) ->
  forall l st held ch fx, b_src st = srcs -> incl l srcs -> MI st held -> b_ev st = gev ->
  exists st' ch', check_listed g st l ch fx = (st', ch', fx ++ fixed_names l) /\ same st st' /\ MI st' held /\
    (ch' = false -> ch = false /\ forall n, In n (fixed_names l) -> In n (b_fix st)).
Proof.
  intros SS SO. induction l as [|[n s] l IH]; intros st held ch fx Es Hi M EV.
  - exists st, ch. simpl. rewrite app_nil_r. split; [solve [auto]|]. split; [apply same_refl|]. split; [solve [auto]|]. intros H. split; [solve [auto]|]. intros n [].
  - assert (incl l srcs) as Hi' by (intros x I; apply Hi; right; auto).
    assert (src_ok n s) as OK by (apply SO, mfind_In; auto; apply Hi; left; auto).
    cbn [check_listed]. unfold fixed_names. simpl filter. destruct (s_free s) eqn:F; simpl negb; cbv iota.
    + apply IH; auto.
    + fold (fixed_names l). simpl map. fold (fixed_names l). destruct (Nat.eqb_spec (count_in (b_fix st) n) 1) as [E|E].
      * destruct (IH st held ch (fx ++ [n]) Es Hi' M EV) as (st' & ch' & A & B & D & G). exists st', ch'. rewrite A, <- app_assoc. split; [solve [auto]|]. split; [solve [auto]|]. split; [solve [auto]|].
        intros H. apply G in H as [H1 H2]. split; [solve [auto]|]. intros x [<-|I]; auto. apply count_in_1_In. auto.
      * destruct (save_map_ok n s st held OK M EV) as [S1 M1].
        destruct (IH (save_map g st n s) held true (fx ++ [n])) as (st' & ch' & A & B & D & G); auto; try (destruct S1 as (q1&q2&q3&q4&q5&q6&q7&q8&q9&q10); congruence).
        exists st', ch'. rewrite A, <- app_assoc. split; [solve [auto]|]. split; [eapply same_trans; [exact S1|exact B]|]. split; [solve [auto]|]. intros H. apply G in H as [H _]. discriminate.
Qed.
Lemma save_freed_ok l fixed : forall st held, MI st held -> b_ev st = gev -> (forall n s, mfind n (b_src st) = Some s -> src_ok n s) ->
  (forall n, In n l -> exists s, mfind n (b_src st) = Some s) ->
  exists st', save_freed g st l fixed = Done st' tt /\ same st st' /\ MI st' held.
Proof.
  induction l as [|n l IH]; intros st held M EV SO Hl; simpl.
  - exists st. split; [auto|]. split; [apply same_refl|auto].
  - destruct (count_in fixed n =? 1).
    + apply IH; auto. intros x I. apply Hl. right. auto.
    + destruct (Hl n (or_introl eq_refl)) as [s E]. rewrite E. destruct (save_map_ok n s st held (SO _ _ E) M EV) as [S1 M1].
      pose proof S1 as (q1&q2&q3&q4&q5&q6&q7&q8&q9&q10).
      destruct (IH (save_map g st n s) held M1) as (st' & A & B & D); try congruence.
      * intros x t. rewrite <- q1. apply SO.
      * intros x I. rewrite <- q1. apply Hl. right. auto.
      * exists st'. split; [exact A|]. split; [eapply same_trans; [exact S1|exact B]|exact D].
Qed.
Lemma check_spectra_ok srcs : sorted srcs -> (forall n s, mfind n srcs = Some s -> src_ok n s) ->
  forall l st held ch, b_src st = srcs -> incl l srcs -> MI st held -> b_ev st = gev ->
  exists st' ch', check_spectra g st l ch = (st', ch') /\ same st st' /\ MI st' held /\
    (ch' = false -> ch = false /\ forall n s, In (n, s) l -> s_free s = false -> In n (b_fix st) -> held n = s_par s).
Proof.
  intros SS SO. induction l as [|[n s] l IH]; intros st held ch Es Hi M EV.
  - exists st, ch. simpl. split; [solve [auto]|]. split; [apply same_refl|]. split; [solve [auto]|]. intros H. split; [solve [auto]|]. intros n s [].
  - assert (incl l srcs) as Hi' by (intros x I; apply Hi; right; auto).
    assert (src_ok n s) as OK by (apply SO, mfind_In; auto; apply Hi; left; auto).
    cbn [check_spectra]. destruct (s_free s) eqn:F.
    + destruct (IH st held ch Es Hi' M EV) as (st' & ch' & A & B & D & G). exists st', ch'. split; [solve [auto]|]. split; [solve [auto]|]. split; [solve [auto]|].
      intros H. apply G in H as [H1 H2]. split; [solve [auto]|]. intros x t [E|I] Ft; [injection E as -> ->; congruence|eauto].
    + destruct (getSourceMap_ok n s OK st held M EV) as (A & B & D & G & _). destruct (getSourceMap g st n s) as [st1 m]. simpl fst in *. simpl snd in *.
      destruct A as (q1&q2&q3&q4&q5&q6&q7&q8&q9&q10). unfold spectrum_changed. destruct (list_eqb (s_par s) (c_latched m)) eqn:El; simpl negb; cbv iota.
      * destruct (IH st1 held ch) as (st' & ch' & A & B' & D' & G'); auto; try congruence. exists st', ch'. split; [exact A|].
        split; [eapply same_trans; [|exact B']; repeat split; auto|]. split; [solve [auto]|]. intros H. apply G' in H as [H1 H2]. split; [solve [auto]|].
        intros x t [E|I] Ft J.
        -- injection E as -> ->. apply list_eqb_spec in El. destruct (G J) as [G1|G1]; [congruence|]. exfalso. apply (proj2 OK). congruence.
        -- eapply H2; eauto. rewrite <- q2. auto.
      * destruct (mok_save n s OK m true D) as [X Y].
        assert (MI (put_map st1 n (setSaveModel m s true)) held) as M2. { apply MI_put; auto. rewrite Y, <- q2. auto. }
        destruct (IH (put_map st1 n (setSaveModel m s true)) held true) as (st' & ch' & A & B' & D' & G'); auto; try (simpl; congruence). exists st', ch'. split; [solve [auto]|].
        split; [eapply same_trans; [|exact B']; repeat split; auto|]. split; [solve [auto]|]. intros H. apply G' in H as [H1 H2]. discriminate.
Qed.
Lemma Inv_same touched st st' held : Inv touched st held -> same st st' -> MI st' held -> Inv touched st' held.
Proof.
  intros [a b c d e f h u v k] (q1&q2&q3&q4&q5&q6&q7&q8&q9&q10) M.
  rewrite q1 in a, b, e. rewrite q2 in d, e, f, h. rewrite q3 in f. rewrite q4 in h. rewrite q5 in u. rewrite q8 in v. rewrite q9, q10 in k.
  split; assumption.
Qed.
Lemma fixedModelUpdated_ok touched st held : Inv touched st held ->
  exists st' ch, fixedModelUpdated g st = Done st' ch /\ same st st' /\ MI st' held /\ (ch = false -> Fresh st' held).
Proof.
  intros I. unfold fixedModelUpdated.
  destruct ((length (b_fs st) =? 0) && negb (length (b_fix st) =? 0)).
  { exists st, true. split; [solve [auto]|]. split; [apply same_refl|]. split; [apply I|discriminate]. }
  pose proof (i_sorted _ _ _ I) as SS. pose proof (i_src _ _ _ I) as SO.
  destruct (check_listed_ok (b_src st) SS SO (b_src st) st held false []) as (st1 & ch1 & E1 & S1 & M1 & G1); auto.
  { apply incl_refl. } { apply I. } { apply I. }
  rewrite E1. simpl app.
  assert (exists st2 ch2, (if length (fixed_names (b_src st)) =? length (b_fix st) then Done st1 ch1
     else rbind (save_freed g st1 (b_fix st1) (fixed_names (b_src st))) (fun st0 (_ : unit) => Done st0 true)) = Done st2 ch2 /\ same st1 st2 /\ MI st2 held /\
     (ch2 = false -> ch1 = false /\ length (fixed_names (b_src st)) = length (b_fix st))) as (st2 & ch2 & E2 & S2 & M2 & G2).
  { destruct (Nat.eqb_spec (length (fixed_names (b_src st))) (length (b_fix st))) as [E|E].
    - exists st1, ch1. split; [auto|]. split; [apply same_refl|]. split; [exact M1|]. intros H. split; [exact H|exact E].
    - destruct S1 as (q1&q2&q3&q4&q5&q6&q7&q8&q9&q10).
      destruct (save_freed_ok (b_fix st1) (fixed_names (b_src st)) st1 held M1) as (st2 & A & B & D).
      + rewrite <- q8. apply I.
      + rewrite <- q1. auto.
      + intros n J. rewrite <- q2 in J. rewrite <- q1. destruct (i_fix _ _ _ I n J) as [s [X _]]. eauto.
      + rewrite A. cbn [rbind]. exists st2, true. split; [solve [auto]|]. split; [solve [auto]|]. split; [solve [auto]|]. discriminate. }
  assert (b_fix st1 = b_fix st) as Ef1 by (destruct S1 as (q1&q2&q3&q4&q5&q6&q7&q8&q9&q10); auto).
  rewrite <- Ef1 in E2. cbv zeta in E2 |- *. rewrite E2. cbn [rbind].
  pose proof (same_trans _ _ _ S1 S2) as S12. destruct S12 as (q1&q2&q3&q4&q5&q6&q7&q8&q9&q10) eqn:Q.
  destruct (check_spectra_ok (b_src st) SS SO (b_src st2) st2 held ch2) as (st3 & ch3 & E3 & S3 & M3 & G3); auto.
  { rewrite <- q1. apply incl_refl. } { rewrite <- q8. apply I. }
  rewrite E3. exists st3, ch3. split; [solve [auto]|]. assert (same st st3) as S by (eapply same_trans; [|exact S3]; eapply same_trans; [exact S1|exact S2]).
  split; [solve [auto]|]. split; [solve [auto]|]. intros ->. destruct (G3 eq_refl) as [-> H3]. destruct (G2 eq_refl) as [-> Hlen]. destruct (G1 eq_refl) as [_ H1].
  pose proof (sorted_nodup _ SS) as ND.
  assert (forall n, In n (b_fix st) <-> In n (fixed_names (b_src st))) as Hsame.
  { intros n. split; [|auto]. intros J. refine (NoDup_length_incl (l' := b_fix st) (fixed_names_nodup _ ND) _ _ n J); [rewrite Hlen; auto|exact H1]. }
  assert (Inv touched st3 held) as I3 by (eapply Inv_same; eauto).
  destruct S as (p1&p2&p3&p4&p5&p6&p7&p8&p9&p10).
  split.
  - destruct I3 as [a b c d e f h u v k]. split; auto. intros n J. rewrite <- p2 in J. apply Hsame in J as J'. apply fixed_names_in in J' as [s [J' F]]; auto.
    exists s. rewrite <- p1. split; [apply mfind_In; auto|]. intros _. split; [solve [auto]|]. symmetry. eapply H3; eauto; [rewrite <- q1; auto|rewrite <- q2; auto].
  - intros n s J. rewrite <- p1 in J. rewrite <- p2, Hsame, fixed_names_in by auto. split.
    + intros [t [K F]]. apply mfind_In in K; auto. congruence.
    + intros F. exists s. split; [apply mfind_in; auto|auto].
Qed.

(** ** The sum over the sources *)
Definition T (s : src) (k : nat) : R := nth k (ph_tot ph gev gev (s_img s, s_par s)) 0%R.
Definition bins (f : nat -> R) (a b : nat) : R := Rsum (map f (seq a (b - a))).
Lemma NpredValue_ok n s st held : src_ok n s -> MI st held -> b_ev st = gev -> b_kmax st <= nbins ->
  exists st', NpredValue ph g st n s = Done st' (bins (T s) (b_kmin st) (b_kmax st)) /\ same st st' /\ MI st' held.
Proof.
  intros OK M EV Hk. unfold NpredValue. destruct (getSourceMap_ok n s OK st held M EV) as (A & B & D & G & _). destruct (getSourceMap g st n s) as [st1 m]. simpl fst in *. simpl snd in *.
  destruct (mok_drm n s OK _ (mok_spec n s m false D)) as (X & Y & Z). cbv zeta. rewrite Z.
  assert (c_ev (update_drm (setSpectralValues m s false) s) = gev) as -> by (destruct X as (_ & _ & _ & X); auto).
  assert (b_ev st1 = gev) as -> by (destruct A as (q1&q2&q3&q4&q5&q6&q7&q8&q9&q10); congruence).
  assert (b_kmin st1 = b_kmin st /\ b_kmax st1 = b_kmax st) as [-> ->] by (destruct A as (q1&q2&q3&q4&q5&q6&q7&q8&q9&q10); auto).
  rewrite sum_bins by (intros k Hk'; rewrite (proj2 (proj2 SZ)); lia).
  exists (put_map st1 n (update_drm (setSpectralValues m s false) s)). split; [|split; [exact A|]].
  - rewrite Rplus_0_l. unfold bins, T. rewrite (proj1 OK). reflexivity.
  - apply MI_put; auto. rewrite Y. simpl. intros J. apply G. destruct A as (_ & -> & _). auto.
Qed.
Lemma sum_loop_ok srcs fx : (forall n s, mfind n srcs = Some s -> src_ok n s) -> sorted srcs ->
  forall l st held np cs, b_src st = srcs -> b_fix st = fx -> incl l srcs -> MI st held -> b_ev st = gev -> b_kmax st <= nbins -> length cs = nfilled ->
  exists st' np' cs', sum_loop ph g nfilled st l np cs = Done st' (np', cs') /\ same st st' /\ MI st' held /\ length cs' = nfilled /\
    np' = (np + Rsum (map (fun ns => bins (T (snd ns)) (b_kmin st) (b_kmax st)) (filter (fun ns => negb (existsb (Z.eqb (fst ns)) fx)) l)))%R /\
    forall j, nth j cs' 0%R = (nth j cs 0 + Rsum (map (fun ns => own_counts ph gev (snd ns) j) (filter (fun ns => negb (existsb (Z.eqb (fst ns)) fx)) l)))%R.
Proof.
  intros SO SS. induction l as [|[n s] l IH]; intros st held np cs Es Efx Hi M EV Hk L.
  - exists st, np, cs. simpl. unfold Rsum. simpl. split; [auto|]. split; [apply same_refl|]. split; [auto|]. split; [auto|]. split; [lra|intros; lra].
  - assert (incl l srcs) as Hi' by (intros x I; apply Hi; right; auto).
    assert (src_ok n s) as OK by (apply SO, mfind_In; auto; apply Hi; left; auto).
    destruct (NpredValue_ok n s st held OK M EV Hk) as (st1 & E1 & S1 & M1). cbn [sum_loop]. rewrite E1. cbn [rbind].
    destruct S1 as (q1&q2&q3&q4&q5&q6&q7&q8&q9&q10).
    destruct (Nat.eqb_spec (count_in (b_fix st1) n) 0) as [E|E].
    + apply count_in_0 in E. rewrite <- q2 in E.
      assert (b_ev st1 = gev) as EV1 by congruence.
      destruct (getSourceMap_ok n s OK st1 held M1 EV1) as (A & B & D & G & _). destruct (getSourceMap g st1 n s) as [st2 m]. simpl fst in *. simpl snd in *.
      destruct (mok_reload n s OK m D) as [D1 _]. set (m1 := reloadIfCleared m s) in *.
      destruct (addSourceCounts_ok n s OK (put_map st2 n m1) cs m1 false false D1 L) as (m2 & buf & E2 & A2 & Q2 & P2 & L3 & H3). rewrite E2. cbn [rbind fst].
      set (st3 := put_map (put_map st2 n m1) n m2).
      assert (same st1 st3) as S3 by exact A.
      assert (MI st3 held) as M3. { apply MI_put; [apply MI_put|..]; auto; simpl; intros J; exfalso; apply E; rewrite q2; destruct A as (_ & -> & _); auto. }
      destruct S3 as (r1&r2&r3&r4&r5&r6&r7&r8&r9&r10).
      destruct (IH st3 held (np + bins (T s) (b_kmin st) (b_kmax st))%R buf) as (st' & np' & cs' & X1 & X2 & X3 & X4 & X5 & X6); auto; try congruence.
      exists st', np', cs'. split; [exact X1|]. split; [eapply same_trans; [|exact X2]; repeat split; congruence|]. split; auto. split; auto.
      simpl filter. subst fx. assert (existsb (Z.eqb n) (b_fix st) = false) as -> by (apply existsb_nIn; auto). simpl negb. cbv iota. simpl map.
      unfold Rsum. cbn [map fold_right]. fold (Rsum (map (fun ns : Z * src => bins (T (snd ns)) (b_kmin st) (b_kmax st)) (filter (fun ns => negb (existsb (Z.eqb (fst ns)) (b_fix st))) l))).
      split.
      * rewrite X5. rewrite <- r9, <- r10, <- q9, <- q10. simpl snd. lra.
      * intros j. rewrite X6, H3. simpl sign_of. unfold Rsum, C, own_counts. simpl snd. rewrite (proj1 OK). lra.
    + assert (In n fx) as J. { rewrite <- Efx, q2. destruct (in_dec Z.eq_dec n (b_fix st1)) as [|NJ]; auto. exfalso. apply E. apply count_in_0. auto. }
      destruct (IH st1 held np cs) as (st' & np' & cs' & X1 & X2 & X3 & X4 & X5 & X6); auto; try congruence.
      exists st', np', cs'. split; [exact X1|]. split; [eapply same_trans; [|exact X2]; repeat split; congruence|]. split; auto. split; auto.
      simpl filter. assert (existsb (Z.eqb n) fx = true) as -> by (apply existsb_In; auto). simpl negb. cbv iota. rewrite q9, q10. auto.
Qed.

(** ** m_model *)
Definition windowed (kmin kmax : nat) (cs : list R) (j : nat) : R :=
  if (nth kmin first 0 <=? j) && (j <? nth kmax first 0) then nth j cs 0%R else 0%R.
Lemma fill_inner cs : forall n a m, a + n <= length m -> length m = length cs ->
  exists m', mfold (fun model j => c <- vec_get cs j ;; vec_set model j c) (seq a n) m = Ok m' /\ length m' = length m /\
    forall j, nth j m' 0%R = if (a <=? j) && (j <? a + n) then nth j cs 0%R else nth j m 0%R.
Proof.
  induction n as [|n IH]; intros a m H L.
  - exists m. simpl. split; auto. split; auto. intros j. destruct (a <=? j) eqn:E1; simpl; auto. destruct (j <? a + 0) eqn:E2; auto.
    apply Nat.leb_le in E1. apply Nat.ltb_lt in E2. lia.
  - cbn [seq mfold]. rewrite (vec_get_ok cs a 0%R) by lia. cbn [obind]. rewrite vec_set_ok by lia. cbn [obind].
    destruct (IH (S a) (upd m a (nth a cs 0%R))) as (m' & E & L' & H'); try (rewrite upd_length; lia).
    exists m'. split; auto. split; [rewrite L', upd_length; auto|]. intros j. rewrite H'.
    destruct (Nat.eq_dec j a) as [->|D].
    + assert ((S a <=? a) = false) as -> by (apply Nat.leb_gt; lia). assert ((a <=? a) = true) as -> by (apply Nat.leb_le; lia).
      assert ((a <? a + S n) = true) as -> by (apply Nat.ltb_lt; lia). simpl. apply nth_upd_eq. lia.
    + rewrite nth_upd_neq by auto. destruct (Nat.leb_spec (S a) j), (Nat.leb_spec a j), (Nat.ltb_spec j (S a + n)), (Nat.ltb_spec j (a + S n)); simpl; auto; lia.
Qed.
Lemma fill_model_ok kmin kmax cs : kmin <= kmax -> kmax <= nbins -> length cs = nfilled ->
  exists m, fill_model nfilled first kmin kmax cs = Ok m /\ length m = nfilled /\ forall j, nth j m 0%R = windowed kmin kmax cs j.
Proof.
  intros H1 H2 L. destruct OF as (F1 & F2 & F3). unfold fill_model.
  assert (forall n k m, k + n = kmax -> kmin <= k -> length m = nfilled -> (forall j, nth j m 0%R = windowed kmin k cs j) ->
    exists m', mfold (fun model k => j_start <- vec_get first k ;; j_stop <- vec_get first (S k) ;;
      mfold (fun model j => c <- vec_get cs j ;; vec_set model j c) (seq j_start (j_stop - j_start)) model) (seq k n) m = Ok m' /\ length m' = nfilled /\
      forall j, nth j m' 0%R = windowed kmin kmax cs j) as G.
  { induction n as [|n IH]; intros k m E Hk Lm Hm.
    - exists m. simpl. split; auto. split; auto. assert (k = kmax) as -> by lia. auto.
    - cbn [seq mfold]. rewrite (vec_get_ok first k 0) by lia. cbn [obind]. rewrite (vec_get_ok first (S k) 0) by lia. cbn [obind].
      pose proof (F3 k (S k) ltac:(lia) ltac:(lia)). pose proof (F3 (S k) nbins ltac:(lia) ltac:(lia)). pose proof (F3 kmin k Hk ltac:(lia)).
      destruct (fill_inner cs (nth (S k) first 0 - nth k first 0) (nth k first 0) m ltac:(lia) ltac:(lia)) as (m1 & E1 & L1 & G1).
      rewrite E1. cbn [obind]. apply IH; try lia. intros j. rewrite G1, Hm. unfold windowed.
      destruct (Nat.leb_spec (nth k first 0) j), (Nat.leb_spec (nth kmin first 0) j), (Nat.ltb_spec j (nth k first 0 + (nth (S k) first 0 - nth k first 0))),
        (Nat.ltb_spec j (nth (S k) first 0)), (Nat.ltb_spec j (nth k first 0)); simpl; auto; lia. }
  apply (G (kmax - kmin) kmin (repeat 0%R nfilled)); try lia; [apply repeat_length|].
  intros j. rewrite nth_repeat0. unfold windowed. destruct (Nat.leb_spec (nth kmin first 0) j), (Nat.ltb_spec j (nth kmin first 0)); simpl; auto; lia.
Qed.

(** ** computeModelMap_internal *)
Lemma filter_split (f : Z * src -> R) (p : Z * src -> bool) l :
  (Rsum (map f (filter p l)) + Rsum (map f (filter (fun x => negb (p x)) l)) = Rsum (map f l))%R.
Proof. induction l as [|x l IH]; simpl; [unfold Rsum; simpl; lra|]. destruct (p x); simpl; unfold Rsum in *; simpl; lra. Qed.
Lemma fix_sum st held (f : Z -> list Z -> nat -> R) (h : src -> nat -> R) : Fresh st held ->
  (forall n s, mfind n (b_src st) = Some s -> s_free s = false -> forall j, f n (s_par s) j = h s j) ->
  forall j, sumf f held (b_fix st) j = Rsum (map (fun ns => h (snd ns) j) (filter (fun ns => existsb (Z.eqb (fst ns)) (b_fix st)) (b_src st))).
Proof.
  intros F Hf j. pose proof (f_inv _ _ F) as I. pose proof (i_sorted _ _ _ I) as SS.
  assert (Permutation (b_fix st) (map fst (filter (fun ns => existsb (Z.eqb (fst ns)) (b_fix st)) (b_src st)))) as P.
  { apply NoDup_Permutation; [apply I| |].
    - pose proof (sorted_nodup _ SS) as ND. revert ND. generalize (b_src st). intros l. induction l as [|[x s] l IH]; simpl; intros ND; [constructor|]. inversion ND; subst.
      destruct (existsb _ _); simpl; auto. constructor; auto. intros J. apply H1. apply in_map_iff in J as [y [E J]]. apply filter_In in J as [J _]. rewrite <- E. apply in_map. auto.
    - intros x. rewrite in_map_iff. split.
      + intros J. destruct (i_fix _ _ _ I x J) as [s [E _]]. exists (x, s). split; auto. apply filter_In. split; [apply mfind_in; auto|]. simpl. apply existsb_In. auto.
      + intros [[y s] [<- J]]. apply filter_In in J as [_ J]. apply existsb_In in J. auto. }
  unfold sumf. rewrite (Rsum_perm _ _ (Permutation_map _ P)). f_equal. rewrite map_map. apply map_ext_in. intros [n s] J. apply filter_In in J as [J1 J2]. simpl in *.
  apply existsb_In in J2. apply mfind_In in J1; auto. destruct (i_fix _ _ _ I n J2) as [t [E G]]. assert (t = s) as -> by congruence. destruct G as [G1 G2]; [simpl; tauto|]. rewrite <- G2. auto.
Qed.

Lemma compute_ok touched st held : Inv touched st held ->
  exists st' held' npred, computeModelMap_internal ph g nfilled nbins first st = Done st' npred /\ Fresh st' held' /\
    b_src st' = b_src st /\ b_kmin st' = b_kmin st /\ b_kmax st' = b_kmax st /\ b_cur st' = true /\
    npred = total_of ph gev (b_src st) (b_kmin st) (b_kmax st) /\ length (b_model st') = nfilled /\
    forall j, nth j (b_model st') 0%R = if (nth (b_kmin st) first 0 <=? j) && (j <? nth (b_kmax st) first 0) then model_of ph gev (b_src st) j else 0%R.
Proof.
  intros I. unfold computeModelMap_internal. destruct (fixedModelUpdated_ok touched st held I) as (st1 & ch & E1 & S1 & M1 & G1).
  rewrite E1. cbn [rbind]. assert (Inv touched st1 held) as I1 by (eapply Inv_same; eauto).
  assert (exists st2 held2, (if ch && b_upd st1 then buildFixedModelWts ph g nfilled nbins st1 else Done st1 tt) = Done st2 tt /\ Fresh st2 held2 /\
     b_src st2 = b_src st /\ b_kmin st2 = b_kmin st /\ b_kmax st2 = b_kmax st) as (st2 & held2 & E2 & F2 & Es & Ek1 & Ek2).
  { destruct S1 as (q1&q2&q3&q4&q5&q6&q7&q8&q9&q10). rewrite (i_upd _ _ _ I1), andb_true_r. destruct ch.
    - destruct (build_ok touched st1 held I1) as (st2 & held2 & X1 & X2 & X3 & X4 & X5 & X6 & X7). exists st2, held2. split; auto. split; auto. repeat split; congruence.
    - exists st1, held. split; auto. }
  rewrite E2. cbn [rbind]. pose proof (f_inv _ _ F2) as I2. destruct (i_cnt _ _ _ I2) as [Lc Hc]. destruct (i_fs _ _ _ I2) as [Lf Hf]. destruct (i_kl _ _ _ I2) as [K1 K2].
  assert (copy_over (b_cnt st2) (repeat 0%R nfilled) = Ok (b_cnt st2)) as ->.
  { unfold copy_over. rewrite repeat_length, Lc, Nat.leb_refl. f_equal. rewrite <- (repeat_length 0%R nfilled) at 1. rewrite skipn_all. apply app_nil_r. }
  rewrite sum_bins by (intros; lia).
  set (fx := b_fix st2). pose proof (i_sorted _ _ _ I2) as SS.
  destruct (sum_loop_ok (b_src st2) fx (i_src _ _ _ I2) SS (b_src st2) st2 held2 (0 + Rsum (map (fun k => nth k (b_fs st2) 0%R) (seq (b_kmin st2) (b_kmax st2 - b_kmin st2))))%R (b_cnt st2))
    as (st3 & np & cs & E3 & S3 & M3 & L3 & N3 & C3); auto; try apply incl_refl; try apply I2.
  rewrite E3. cbn [rbind fst snd]. destruct S3 as (q1&q2&q3&q4&q5&q6&q7&q8&q9&q10) eqn:Q.
  destruct (fill_model_ok (b_kmin st3) (b_kmax st3) cs ltac:(lia) ltac:(lia) L3) as (model & E4 & L4 & H4). rewrite E4.
  exists (with_model st3 model true), held2, np. split; auto.
  assert (Inv [] st3 held2) as I3 by (eapply Inv_same; eauto).
  split.
  { split; [destruct I3 as [a b c d e f h u v k]; split; auto|]. intros n s J. simpl in *. rewrite <- q2. apply (f_fix _ _ F2). congruence. }
  split; [simpl; congruence|]. split; [simpl; congruence|]. split; [simpl; congruence|]. split; [auto|].
  assert (forall j, nth j cs 0%R = model_of ph gev (b_src st) j) as Hcs.
  { intros j. rewrite C3, Hc. rewrite (fix_sum st2 held2 C (own_counts ph gev) F2).
    - rewrite <- Es. unfold model_of. apply (filter_split (fun ns => own_counts ph gev (snd ns) j) (fun ns => existsb (Z.eqb (fst ns)) fx)).
    - intros n s J _ i. unfold C, own_counts. destruct (i_src _ _ _ I2 n s J) as [-> _]. auto. }
  split.
  { rewrite N3, Rplus_0_l. unfold total_of. rewrite <- Es, <- Ek1, <- Ek2.
    rewrite (Rsum_ext _ (fun k => Rsum (map (fun ns => own_total ph gev (snd ns) k) (filter (fun ns => existsb (Z.eqb (fst ns)) fx) (b_src st2))))).
    2:{ intros k _. rewrite Hf. rewrite (fix_sum st2 held2 N (fun s k => own_total ph gev s k) F2); auto.
        intros n s J Fr i. unfold N, own_total. rewrite Fr. destruct (i_src _ _ _ I2 n s J) as [-> _]. auto. }
    set (K := seq (b_kmin st2) (b_kmax st2 - b_kmin st2)).
    assert (forall l, Rsum (map (fun ns : Z * src => bins (T (snd ns)) (b_kmin st2) (b_kmax st2)) l) = Rsum (map (fun k => Rsum (map (fun ns : Z * src => T (snd ns) k) l)) K)) as Hsw.
    { intros l. unfold bins. fold K. apply (Rsum_swap (fun (ns : Z * src) k => T (snd ns) k)). }
    rewrite Hsw. clear -F2 I2 SS.
    assert (forall k, (Rsum (map (fun ns => own_total ph gev (snd ns) k) (filter (fun ns => existsb (Z.eqb (fst ns)) fx) (b_src st2))) +
       Rsum (map (fun ns => T (snd ns) k) (filter (fun ns => negb (existsb (Z.eqb (fst ns)) fx)) (b_src st2))) = Rsum (map (fun ns => own_total ph gev (snd ns) k) (b_src st2)))%R) as Hk.
    { intros k. rewrite <- (filter_split _ (fun ns => existsb (Z.eqb (fst ns)) fx) (b_src st2)). f_equal. f_equal. apply map_ext_in. intros [n s] J. apply filter_In in J as [J1 J2].
      apply mfind_In in J1; auto. simpl in *. unfold own_total, T. destruct (s_free s) eqn:Fr; auto. exfalso. apply (f_fix _ _ F2 n s J1) in Fr. apply existsb_In in Fr. unfold fx in J2. rewrite Fr in J2. discriminate. }
    rewrite <- Rsum_plus. apply Rsum_ext. intros k _. apply Hk. }
  split; [auto|]. intros j. simpl b_model. rewrite H4. unfold windowed. rewrite <- q9, <- q10, Ek1, Ek2, Hcs. reflexivity.
Qed.

(** ** Every call keeps the invariant *)
Lemma Inv_weaken touched st held : Inv [] st held -> Inv touched st held.
Proof.
  intros [a b c d e f h u v k]. split; auto. intros n J. destruct (e n J) as [s [E G]]. exists s. split; auto.
Qed.
Lemma mfind_par_update f m n : mfind n (par_update f m) = option_map (fun s => if s_free s then with_par (f n (s_par s)) s else s) (mfind n m).
Proof.
  induction m as [|[x s] m IH]; simpl; auto. destruct (Z.eqb_spec n x); [subst; auto|auto].
Qed.
Lemma keys_par_update f m : mkeys (par_update f m) = mkeys m.
Proof. unfold mkeys, par_update. rewrite map_map. reflexivity. Qed.
Lemma grad_sources_ok srcs fx : (forall n s, mfind n srcs = Some s -> src_ok n s) -> sorted srcs ->
  forall l st held, b_fix st = fx -> incl l srcs -> MI st held -> b_ev st = gev ->
  exists st', grad_sources g st l = (st', map fst (filter (fun ns => negb (existsb (Z.eqb (fst ns)) fx)) l)) /\ same st st' /\ MI st' held.
Proof.
  intros SO SS. induction l as [|[n s] l IH]; intros st held Ef Hi M EV.
  - exists st. split; auto. split; [apply same_refl|auto].
  - assert (incl l srcs) as Hi' by (intros x I; apply Hi; right; auto).
    assert (src_ok n s) as OK by (apply SO, mfind_In; auto; apply Hi; left; auto).
    cbn [grad_sources]. simpl filter. destruct (Nat.eqb_spec (count_in (b_fix st) n) 0) as [E|E].
    + apply count_in_0 in E. assert (existsb (Z.eqb n) fx = false) as -> by (apply existsb_nIn; congruence). simpl negb. cbv iota.
      destruct (getSourceMap_ok n s OK st held M EV) as (A & B & D & G & _). destruct (getSourceMap g st n s) as [st1 m]. simpl fst in *. simpl snd in *.
      destruct A as (q1&q2&q3&q4&q5&q6&q7&q8&q9&q10).
      assert (MI (put_map st1 n (setSpectralValues m s false)) held) as M2 by (apply MI_put; auto; simpl; rewrite <- q2; intros J; contradiction).
      destruct (IH (put_map st1 n (setSpectralValues m s false)) held) as (st' & X1 & X2 & X3); auto; try (simpl; congruence).
      cbv zeta. rewrite X1. exists st'. split; auto. split; auto. eapply same_trans; [|exact X2]. repeat split; auto.
    + assert (In n fx) as J. { rewrite <- Ef. destruct (in_dec Z.eq_dec n (b_fix st)) as [|NJ]; auto. exfalso. apply E. apply count_in_0. auto. }
      apply existsb_In in J. rewrite J. simpl negb. cbv iota. apply IH; auto.
Qed.

Definition after (o : op) (touched : list Z) : list Z :=
  match o with OSetParam n _ | OSetFree n _ => n :: touched | OValue => [] | _ => touched end.
Definition ends_in (r : res obs) (st' : bl) : Prop := (exists ob, r = Done st' ob) \/ r = Threw st'.
Lemma quiet_done r st' : r = Done st' tt -> ends_in (quiet r) st'.
Proof. intros ->. left. exists ObsNone. reflexivity. Qed.
Lemma quiet_threw r st' : r = Threw st' -> ends_in (quiet r) st'.
Proof. intros ->. right. reflexivity. Qed.

Lemma Inv_set touched st held n s t (I : Inv touched st held) : mfind n (b_src st) = Some s -> src_ok n t -> Inv (n :: touched) (with_src st (minsert n t (b_src st))) held.
Proof.
  intros E OK. destruct I as [a b c d e f h u v k]. split; auto; simpl.
  - apply sorted_insert, a.
  - intros x y J. destruct (Z.eq_dec x n) as [->|D]; [rewrite mfind_insert_eq in J; injection J as <-; auto|rewrite mfind_insert_neq in J by auto; eauto].
  - intros x J. destruct (Z.eq_dec x n) as [->|D].
    + rewrite mfind_insert_eq. exists t. split; auto. intros K. exfalso. apply K. left. auto.
    + rewrite mfind_insert_neq by auto. destruct (e x J) as [y [X Y]]. exists y. split; auto.
Qed.

Lemma step_ok touched st held o : Inv touched st held -> ordinary image_of nbins o -> (forall n, o = ODelete n -> ~ In n touched) ->
  exists st' held', ends_in (step ph g nfilled nbins first st o) st' /\ Inv (after o touched) st' held' /\
    b_src st' = source_step (b_src st) o /\ (b_kmin st', b_kmax st') = window_step (b_kmin st, b_kmax st) o /\
    (sets_model o = true -> b_cur st' = false \/ o = OValue).
Proof.
  intros I Ho Hdel. destruct o as [n s|n|n p|n b|f| |a b|v|b|n rc bd|n|n i| |]; simpl in Ho.
  - (* addSource *)
    simpl step. unfold addSource. simpl after. simpl source_step. destruct (mfind n (b_src st)) as [s0|] eqn:E.
    { exists st, held. split; [apply quiet_threw; auto|]. repeat (split; auto). discriminate. }
    destruct Ho as [Ho1 Ho2]. assert (src_ok n s) as OK by (split; auto).
    set (st1 := with_src st (minsert n s (b_src st))).
    assert (MI st1 held) as M1 by apply (i_maps _ _ _ I).
    assert (~ In n (b_fix st)) as NI. { intros J. destruct (i_fix _ _ _ I n J) as [y [X _]]. congruence. }
    assert (sorted (b_src st1)) as S1 by (apply sorted_insert, (i_sorted _ _ _ I)).
    assert (forall x y, mfind x (b_src st1) = Some y -> src_ok x y) as O1.
    { intros x y J. simpl in J. destruct (Z.eq_dec x n) as [->|D]; [rewrite mfind_insert_eq in J; injection J as <-; auto|rewrite mfind_insert_neq in J by auto; eapply i_src; eauto]. }
    assert (forall x, In x (b_fix st) -> exists y, mfind x (b_src st1) = Some y /\ (~ In x touched -> s_free y = false /\ s_par y = held x)) as F1.
    { intros x J. simpl. rewrite mfind_insert_neq by (intros ->; contradiction). apply (i_fix _ _ _ I x J). }
    destruct (g_single g && negb (s_free s)) eqn:Eg.
    + apply andb_true_iff in Eg as [_ Eg]. apply negb_true_iff in Eg.
      assert (mfind n (b_src st1) = Some s) as E1 by (simpl; apply mfind_insert_eq).
      destruct (addFixedSource_ok st1 held n s M1 (i_ev _ _ _ I) E1 OK NI (proj1 (i_cnt _ _ _ I)) (proj2 (i_cnt _ _ _ I)) (proj1 (i_fs _ _ _ I)) (proj2 (i_fs _ _ _ I)))
        as (st2 & E2 & B & a1 & a2 & a3 & a4 & a5 & a6 & a7 & a8 & a9 & a10 & a11 & a12).
      exists st2, (hset held n (s_par s)). split; [apply quiet_done; auto|]. split; [|split; [rewrite a1; reflexivity|split; [rewrite a5, a6; reflexivity|discriminate]]].
      split; auto.
      * rewrite a1. auto.
      * rewrite a1. auto.
      * rewrite a2. change (b_fix st1) with (b_fix st). apply (Permutation_NoDup (Permutation_cons_append (b_fix st) n)). constructor; auto. apply I.
      * intros x J. rewrite a1. rewrite a2 in J. apply in_app_iff in J as [J|[<-|[]]].
        -- destruct (F1 x J) as [y [X Y]]. exists y. split; auto. intros K. rewrite hset_neq by (intros ->; contradiction). auto.
        -- exists s. split; auto. intros _. rewrite hset_eq. auto.
      * rewrite a3. apply (i_upd _ _ _ I).
      * rewrite a4. apply (i_ev _ _ _ I).
      * rewrite a5, a6. apply (i_kl _ _ _ I).
    + destruct (getSourceMap_ok n s OK st1 held M1 (i_ev _ _ _ I)) as (A & B & _). exists (fst (getSourceMap g st1 n s)), held.
      split; [apply quiet_done; auto|]. split; [|split; [reflexivity|split; [reflexivity|discriminate]]].
      eapply (Inv_same touched st1); eauto. destruct I as [a b c d e f h u v k]. split; auto.
  - (* deleteSource *)
    specialize (Hdel n eq_refl). simpl step. unfold deleteSource. simpl after. simpl source_step. destruct (existsb (Z.eqb n) (b_fix st)) eqn:Ef.
    + apply existsb_In in Ef. destruct (i_fix _ _ _ I n Ef) as [s [E G]]. destruct (G Hdel) as [G1 G2]. rewrite E.
      pose proof (i_src _ _ _ I n s E) as OK.
      destruct (getSourceMap_ok n s OK st held (i_maps _ _ _ I) (i_ev _ _ _ I)) as (A & B & D & Gm & _). destruct (getSourceMap g st n s) as [st1 m]. simpl fst in *. simpl snd in *.
      assert (Inv touched st1 held) as I1 by (eapply Inv_same; eauto). destruct A as (q1&q2&q3&q4&q5&q6&q7&q8&q9&q10).
      destruct (i_cnt _ _ _ I1) as [L1 H1]. destruct (i_fs _ _ _ I1) as [L2 H2].
      destruct (addSourceCounts_ok n s OK st1 (b_cnt st1) m true false D L1) as (m2 & buf & E2 & A2 & Q2 & P2 & L3 & H3). rewrite E2. cbn [rbind].
      destruct (addFixedNpreds_ok n s OK (with_cnt (put_map st1 n m2) buf) m2 true A2 P2 L2) as (m4 & fs & E4 & A4 & Q4 & L4 & H4). rewrite E4. cbn [rbind].
      set (st2 := with_fix _ _). assert (b_src st2 = b_src st) as Es by (simpl; auto). rewrite Es, E.
      assert (b_fix st2 = remove_first n (b_fix st)) as Ex by (simpl; rewrite q2; auto).
      destruct (remove_first_spec n (b_fix st) (i_nodup _ _ _ I)) as [N1 N2].
      pose proof (remove_first_perm n (b_fix st) Ef) as P.
      exists (with_src st2 (merase n (b_src st))), held. split; [apply quiet_done; reflexivity|].
      split; [|split; [simpl; auto|split; [simpl; congruence|discriminate]]].
      split; simpl.
      * apply sorted_erase, (i_sorted _ _ _ I).
      * intros x y J. destruct (Z.eq_dec x n) as [->|Dn]; [rewrite mfind_erase_eq in J by apply (i_sorted _ _ _ I); discriminate|]. rewrite mfind_erase_neq in J by auto. exact (i_src _ _ _ I x y J).
      * destruct B as [B1 B2]. split; simpl; [apply sorted_insert, sorted_insert, B1|]. intros x y J. destruct (Z.eq_dec x n) as [->|Dn].
        -- rewrite mfind_insert_eq in J. injection J as <-. split; auto. rewrite <- q2. intros K. apply N2 in K. tauto.
        -- rewrite !mfind_insert_neq in J by auto. destruct (B2 x y J) as [B3 B4]. split; auto. intros K. apply B4. rewrite <- q2 in *. apply N2 in K. tauto.
      * rewrite <- q2. auto.
      * intros x J. rewrite <- q2 in J. apply N2 in J as [J1 J2]. rewrite mfind_erase_neq by auto. apply (i_fix _ _ _ I x J1).
      * split; [auto|]. intros j. rewrite H3, H1, <- q2. unfold sumf at 1. rewrite (Rsum_perm _ _ (Permutation_map _ P)). unfold Rsum. cbn [map fold_right]. rewrite G2. unfold sumf, Rsum. simpl sign_of. lra.
      * split; [auto|]. intros j. rewrite H4. simpl b_fs. rewrite H2, <- q2. unfold sumf at 1. rewrite (Rsum_perm _ _ (Permutation_map _ P)). unfold Rsum. cbn [map fold_right]. rewrite G2. unfold sumf, Rsum. simpl sign_of. lra.
      * apply (i_upd _ _ _ I1).
      * apply (i_ev _ _ _ I1).
      * apply (i_kl _ _ _ I1).
    + apply existsb_nIn in Ef. cbn [rbind]. destruct (mfind n (b_src st)) as [s|] eqn:E.
      * exists (with_src st (merase n (b_src st))), held. split; [apply quiet_done; auto|]. split; [|split; [auto|split; [auto|discriminate]]].
        destruct I as [a b c d e f h u v k]. split; auto; simpl.
        -- apply sorted_erase, a.
        -- intros x y J. destruct (Z.eq_dec x n) as [->|Dn]; [rewrite mfind_erase_eq in J by auto; discriminate|]. rewrite mfind_erase_neq in J by auto. eauto.
        -- intros x J. rewrite mfind_erase_neq by (intros ->; contradiction). auto.
      * exists st, held. split; [apply quiet_threw; auto|]. split; auto. split; [rewrite merase_absent; auto|split; [auto|discriminate]].
  - (* setParam *)
    simpl step. unfold set_src. simpl after. simpl source_step. destruct (mfind n (b_src st)) as [s|] eqn:E.
    + exists (with_src st (minsert n (with_par p s) (b_src st))), held. split; [apply quiet_done; auto|]. split; [|split; [auto|split; [auto|discriminate]]].
      eapply Inv_set; eauto. destruct (i_src _ _ _ I n s E). split; auto.
    + exists st, held. split; [apply quiet_threw; auto|]. split; [|split; [auto|split; [auto|discriminate]]].
      destruct I as [a b c d e f h u v k]. split; auto. intros x J. destruct (e x J) as [y [X Y]]. exists y. split; auto. intros K. apply Y. intros K'. apply K. right. auto.
  - simpl step. unfold set_src. simpl after. simpl source_step. destruct (mfind n (b_src st)) as [s|] eqn:E.
    + exists (with_src st (minsert n (with_free b s) (b_src st))), held. split; [apply quiet_done; auto|]. split; [|split; [auto|split; [auto|discriminate]]].
      eapply Inv_set; eauto. destruct (i_src _ _ _ I n s E). split; auto.
    + exists st, held. split; [apply quiet_threw; auto|]. split; [|split; [auto|split; [auto|discriminate]]].
      destruct I as [a b' c d e f h u v k]. split; auto. intros x J. destruct (e x J) as [y [X Y]]. exists y. split; auto. intros K. apply Y. intros K'. apply K. right. auto.
  - (* setFreeParamValues *)
    exists (uncurrent (with_src st (par_update f (b_src st)))), held. split; [left; eexists; reflexivity|]. simpl after.
    split; [|split; [simpl; unfold par_update, with_par; apply map_ext; intros [x y]; simpl; destruct (s_free y); reflexivity|split; [auto|auto]]].
    destruct I as [a b c d e f0 h u v k]. split; auto; simpl.
    + unfold sorted. rewrite keys_par_update. exact a.
    + intros n s J. rewrite mfind_par_update in J. destruct (mfind n (b_src st)) as [t|] eqn:E; [|discriminate]. simpl in J. injection J as <-. destruct (b n t E) as [X Y].
      destruct (s_free t); split; simpl; auto.
    + intros n J. rewrite mfind_par_update. destruct (e n J) as [t [-> G]]. simpl. eexists. split; [reflexivity|]. intros K. destruct (G K) as [G1 G2]. rewrite G1. auto.
  - exists (uncurrent st), held. split; [left; eexists; reflexivity|]. split; [|split; [auto|split; [auto|auto]]]. destruct I as [a b c d e f h u v k]. split; auto.
  - (* set_klims *)
    eexists _, held. split; [left; eexists; reflexivity|]. split; [|split; [auto|split; [auto|auto]]]. destruct I as [a' b' c d e f h u v k]. split; auto.
  - contradiction.
  - subst b. eexists _, held. split; [left; eexists; reflexivity|]. split; [|split; [auto|split; [auto|discriminate]]]. destruct I as [a' b' c d e f h u v k]. split; auto.
  - (* loadSourceMap *)
    simpl step. simpl after. simpl source_step. destruct (mfind n (b_src st)) as [s|] eqn:E.
    2:{ exists st, held. split; [apply quiet_threw; auto|]. split; auto. split; [auto|split; [auto|discriminate]]. }
    pose proof (i_src _ _ _ I n s E) as OK. set (st1 := if rc then _ else _).
    assert (same st st1 /\ MI st1 held) as [S1 M1].
    { unfold st1. destruct rc.
      - split; [repeat split|]. apply MI_put; [apply I| |simpl; auto]. rewrite (i_ev _ _ _ I). apply mok_new, OK.
      - destruct (getSourceMap_ok n s OK st held (i_maps _ _ _ I) (i_ev _ _ _ I)) as (A & B & _). auto. }
    assert (Inv touched st1 held) as I1 by (eapply Inv_same; eauto). destruct S1 as (q1&q2&q3&q4&q5&q6&q7&q8&q9&q10).
    destruct (existsb (Z.eqb n) (b_fix st1) && bd).
    + destruct (build_ok touched st1 held I1) as (st2 & held2 & X1 & X2 & X3 & X4 & X5 & X6 & X7). exists st2, held2. split; [apply quiet_done; auto|].
      split; [apply Inv_weaken, X2|]. split; [congruence|]. split; [simpl; congruence|discriminate].
    + exists st1, held. split; [apply quiet_done; auto|]. split; auto. split; [congruence|]. split; [simpl; congruence|discriminate].
  - (* eraseSourceMap *)
    eexists _, held. split; [left; eexists; reflexivity|]. split; [|split; [auto|split; [auto|discriminate]]].
    destruct I as [a b c d e f h u v k]. destruct c as [S M]. split; auto. split; simpl; [apply sorted_erase, S|]. intros x y J.
    destruct (Z.eq_dec x n) as [->|Dn]; [rewrite mfind_erase_eq in J by auto; discriminate|]. rewrite mfind_erase_neq in J by auto. auto.
  - contradiction.
  - (* value *)
    destruct (compute_ok touched st held I) as (st' & held' & npred & E & F & X1 & X2 & X3 & X4 & _).
    exists st', held'. split; [left; simpl step; unfold value; rewrite E; eexists; reflexivity|]. split; [apply F|]. split; [auto|]. split; [simpl; congruence|auto].
  - (* getFreeDerivs *)
    assert (exists st1 held1, (if b_cur st then Done st tt else rbind (computeModelMap_internal ph g nfilled nbins first st) (fun st0 _ => Done st0 tt)) = Done st1 tt /\ Inv touched st1 held1 /\
       b_src st1 = b_src st /\ b_kmin st1 = b_kmin st /\ b_kmax st1 = b_kmax st) as (st1 & held1 & E1 & I1 & X1 & X2 & X3).
    { destruct (b_cur st); [exists st, held; auto|]. destruct (compute_ok touched st held I) as (st' & held' & npred & E & F & Y1 & Y2 & Y3 & Y4 & _). rewrite E. exists st', held'.
      split; [reflexivity|]. split; [apply Inv_weaken, F|]. auto. }
    simpl step. unfold gradient_model. rewrite E1. cbn [rbind].
    destruct (grad_sources_ok (b_src st1) (b_fix st1) (i_src _ _ _ I1) (i_sorted _ _ _ I1) (b_src st1) st1 held1) as (st2 & G1 & G2 & G3); auto; try apply incl_refl; try apply I1.
    rewrite G1. cbn [rbind]. exists st2, held1. split; [left; eexists; reflexivity|]. split; [eapply Inv_same; eauto|]. destruct G2 as (q1&q2&q3&q4&q5&q6&q7&q8&q9&q10).
    split; [simpl; congruence|]. split; [simpl; congruence|discriminate].
Qed.

Lemma run_ok ops : forall touched st held, Inv touched st held -> Forall (ordinary image_of nbins) ops -> settled touched ops ->
  exists st' held' touched', run ph g nfilled nbins first st ops = Some st' /\ Inv touched' st' held' /\
    b_src st' = fold_left source_step ops (b_src st) /\ (b_kmin st', b_kmax st') = fold_left window_step ops (b_kmin st, b_kmax st).
Proof.
  induction ops as [|o ops IH]; intros touched st held I Ho Hs; simpl.
  - exists st, held, touched. auto.
  - inversion Ho as [|? ? Ho1 Ho2]; subst.
    assert (forall n, o = ODelete n -> ~ In n touched) as Hd by (intros n ->; apply Hs).
    destruct (step_ok touched st held o I Ho1 Hd) as (st1 & held1 & E & I1 & X1 & X2 & _).
    assert (settled (after o touched) ops) as Hs1 by (destruct o; simpl in *; tauto).
    destruct (IH _ _ _ I1 Ho2 Hs1) as (st2 & held2 & t2 & E2 & I2 & Y1 & Y2). exists st2, held2, t2.
    split; [destruct E as [[ob ->]| ->]; auto|]. split; auto. rewrite Y1, Y2, X1, X2. auto.
Qed.
Lemma names_fresh st held : Fresh st held ->
  map fst (filter (fun ns => negb (existsb (Z.eqb (fst ns)) (b_fix st))) (b_src st)) = map fst (filter (fun ns => s_free (snd ns)) (b_src st)).
Proof.
  intros [I F]. f_equal. apply filter_ext_in. intros [n s] J. simpl. apply mfind_In in J; [|apply (i_sorted _ _ _ I)]. specialize (F n s J).
  destruct (existsb (Z.eqb n) (b_fix st)) eqn:E; destruct (s_free s) eqn:G; auto.
  - apply existsb_In in E. apply F in E. discriminate.
  - apply existsb_nIn in E. destruct E. apply F. auto.
Qed.
Lemma fresh_gradient st held : Fresh st held -> b_cur st = true ->
  exists st', gradient_model ph g nfilled nbins first st = Done st' (b_model st, map fst (filter (fun ns => s_free (snd ns)) (b_src st))).
Proof.
  intros F Hc. pose proof (f_inv _ _ F) as I. unfold gradient_model. rewrite Hc. cbn [rbind].
  destruct (grad_sources_ok (b_src st) (b_fix st) (i_src _ _ _ I) (i_sorted _ _ _ I) (b_src st) st held) as (st2 & G1 & G2 & G3); auto; try apply incl_refl; try apply I.
  rewrite G1, (names_fresh st held F). exists st2. destruct G2 as (q1&q2&q3&q4&q5&q6&q7&q8&q9&q10). congruence.
Qed.
Lemma stale_gradient touched st held : Inv touched st held -> b_cur st = false ->
  exists st1 st' held' npred, computeModelMap_internal ph g nfilled nbins first st = Done st1 npred /\ Fresh st1 held' /\
    gradient_model ph g nfilled nbins first st = Done st' (b_model st1, map fst (filter (fun ns => s_free (snd ns)) (b_src st))).
Proof.
  intros I Hc. destruct (compute_ok touched st held I) as (st1 & held1 & npred & E & F & X1 & X2 & X3 & X4 & _).
  destruct (fresh_gradient st1 held1 F X4) as [st' G]. unfold gradient_model in *. rewrite Hc, E. rewrite X4 in G. cbn [rbind] in *. rewrite X1 in G.
  exists st1, st', held1, npred. rewrite X1. auto.
Qed.
Lemma init_ok : Inv [] (init g nfilled nbins) (fun _ => []).
Proof.
  assert (forall n j, nth j (repeat 0%R n) 0%R = Rsum []) as Z by (intros; apply nth_repeat0).
  split; simpl; auto; try (split; [apply repeat_length|intros; apply Z]); try constructor; try discriminate; try tauto; try lia; constructor.
Qed.
End P.

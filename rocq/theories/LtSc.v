From Coq Require Import Reals Lra Lia.
From Coquelicot Require Import Coquelicot.
From Verif Require Import Base AccumModel AccumProofs EvtModel EvtProofs LtModel LtSpec LtProofs LtLoad.
Local Open Scope R_scope.

Lemma map_nth0 {A B} (f : A -> B) l i d e : (i < length l)%nat -> nth i (map f l) e = f (nth i l d).
Proof. intros H. rewrite (nth_indep (map f l) e (f d)) by (now rewrite map_length). apply map_nth. Qed.
Lemma at_map {A B} (f : A -> B) l i d : (i < length l)%nat -> vec_at (map f l) i = Ok (f (nth i l d)).
Proof. intros H. unfold vec_at. rewrite nth_error_map, (nth_error_nth' l d H). reflexivity. Qed.
Lemma get_map {A B} (f : A -> B) l i d : (i < length l)%nat -> vec_get (map f l) i = Ok (f (nth i l d)).
Proof. intros H. unfold vec_get. rewrite nth_error_map, (nth_error_nth' l d H). reflexivity. Qed.
Lemma last_map {A} (f : A -> R) l d : l <> [] -> back (map f l) = Ok (f (nth (length l - 1) l d)).
Proof.
  intros H. unfold back. destruct l as [|x l]; [congruence|]. cbn [map]. change (f x :: map f l) with (map f (x :: l)). rewrite map_length.
  apply get_map. simpl. lia.
Qed.

(** ** time_index *)
Lemma starts_nondec rows : rows_in_order rows -> nondecreasing (map (@row_start (vec3 * vec3)) rows).
Proof.
  intros W i j Hij Hj. rewrite map_length in Hj. destruct (rows_nth rows row0 W) as (P & Q).
  rewrite !(map_nth0 _ _ _ row0) by lia. pose proof (P i ltac:(lia)). pose proof (Q i j Hij Hj). lra.
Qed.
Lemma time_index_ok rows t : rows_in_order rows -> rows <> [] -> row_start (nth 0 rows row0) - tol <= t -> t <= row_stop (nth (length rows - 1) rows row0) + tol ->
  exists u, time_index (columns rows) t = Ok (minus1 u) /\ (u <= length rows)%nat /\ (forall i, (i < u)%nat -> row_start (nth i rows row0) <= t) /\ (forall i, (u <= i)%nat -> (i < length rows)%nat -> t < row_start (nth i rows row0)).
Proof.
  intros W NE A B. unfold time_index, columns. cbn [sc_start sc_stop]. assert (L : (0 < length rows)%nat) by (destruct rows; [congruence|simpl; lia]).
  unfold front. rewrite (get_map _ _ _ row0) by lia. cbn [obind]. rewrite (last_map _ _ row0) by auto. cbn [obind]. fold tol.
  destruct (Rltb_spec t (row_start (nth 0 rows row0) - tol)); [lra|]. destruct (Rltb_spec (row_stop (nth (length rows - 1) rows row0) + tol) t); [lra|]. cbn [orb].
  destruct (ub_ok _ t (starts_nondec rows W)) as (u & E & L1 & Lo & Hi). rewrite E. cbn [obind]. rewrite map_length in *. exists u. split; auto. split; auto. split.
  - intros i Hi'. specialize (Lo i Hi'). rewrite (map_nth0 _ _ _ row0) in Lo by lia. exact Lo.
  - intros i Hi' Hl. specialize (Hi i Hi' Hl). rewrite (map_nth0 _ _ _ row0) in Hi by lia. exact Hi.
Qed.
Lemma time_index_at rows t i : rows_in_order rows -> (i < length rows)%nat -> t <= row_stop (nth (length rows - 1) rows row0) + tol ->
  row_start (nth i rows row0) <= t -> (S i = length rows \/ t < row_start (nth (S i) rows row0)) -> time_index (columns rows) t = Ok (Some i).
Proof.
  intros W L B C D. assert (NE : rows <> []) by (destruct rows; [simpl in L; lia|discriminate]). assert (T : 0 < tol) by (unfold tol; lra).
  destruct (rows_nth rows row0 W) as (P & Q).
  assert (A : row_start (nth 0 rows row0) <= t). { destruct i; auto. pose proof (P 0%nat ltac:(lia)). pose proof (Q 0%nat (S i) ltac:(lia) ltac:(lia)). lra. }
  destruct (time_index_ok rows t W NE ltac:(lra) B) as (u & -> & Lu & Lo & Hi).
  assert (E : u = S i).
  { destruct (lt_eq_lt_dec u (S i)) as [[H|H]|H]; auto; exfalso.
    - pose proof (Hi i ltac:(lia) ltac:(lia)). lra.
    - destruct D as [D|D]; [lia|]. pose proof (Lo (S i) ltac:(lia)). lra. }
  subst u. reflexivity.
Qed.

(** ** livetimefrac *)
Lemma livetime_ok rows t : rows_in_order rows -> rows <> [] -> row_start (nth 0 rows row0) <= t -> t <= row_stop (nth (length rows - 1) rows row0) + tol ->
  exists v i, livetimefrac (columns rows) t = Ok v /\ (i < length rows)%nat /\ row_start (nth i rows row0) <= t /\ (S i = length rows \/ t < row_start (nth (S i) rows row0)) /\
    ((t <= row_stop (nth i rows row0) /\ v = row_live (nth i rows row0) / (row_stop (nth i rows row0) - row_start (nth i rows row0))) \/ (row_stop (nth i rows row0) < t /\ v = 0)).
Proof.
  intros W NE A B. destruct (rows_nth rows row0 W) as (P & Q). assert (T : 0 < tol) by (unfold tol; lra).
  destruct (time_index_ok rows t W NE ltac:(lra) B) as (u & E & Lu & Lo & Hi). assert (L : (0 < length rows)%nat) by (destruct rows; [congruence|simpl; lia]).
  destruct u as [|i]. { pose proof (Hi 0%nat ltac:(lia) L). lra. }
  unfold livetimefrac. rewrite E. cbn [obind minus1 at_opt columns sc_start sc_stop sc_live]. rewrite !(at_map _ _ _ row0) by lia. cbn [obind].
  pose proof (Lo i ltac:(lia)). destruct (Rltb_spec t (row_start (nth i rows row0))); [lra|].
  assert (D : S i = length rows \/ t < row_start (nth (S i) rows row0)). { destruct (Nat.eq_dec (S i) (length rows)); auto. right. apply Hi; lia. }
  destruct (Rltb_spec (row_stop (nth i rows row0)) t) as [G|G].
  - exists 0, i. repeat split; auto; try lia.
  - pose proof (P i ltac:(lia)). destruct (Reqb_spec (row_stop (nth i rows row0) - row_start (nth i rows row0)) 0); [lra|].
    eexists _, i. split; [reflexivity|]. split; [lia|]. split; [auto|]. split; auto. left. split; [lra|reflexivity].
Qed.

(** ** The axes *)
Lemma v_mix f a b : v_add (v_scale f (v_sub b a)) a = v_add (v_scale (1 - f) a) (v_scale f b).
Proof. destruct a as [[a1 a2] a3], b as [[b1 b2] b3]. unfold v_add, v_scale, v_sub, v_add, v_scale. f_equal; [f_equal|]; ring. Qed.
Lemma index_min_ok i n : (2 <= n)%nat -> index_min (Some i) n = Some (Nat.min i (n - 2)).
Proof. intros H. destruct n as [|[|n]]; try lia. simpl. now rewrite Nat.sub_0_r. Qed.
Lemma axis_ok (pick : sc_row -> vec3) rows t i : rows_in_order rows -> (S i < length rows)%nat -> row_start (nth i rows row0) <= t <= row_start (nth (S i) rows row0) ->
  axis_at (columns rows) (map pick rows) t = Ok (let f := (t - row_start (nth i rows row0)) / (row_start (nth (S i) rows row0) - row_start (nth i rows row0)) in
    v_unit (v_add (v_scale (1 - f) (pick (nth i rows row0))) (v_scale f (pick (nth (S i) rows row0))))).
Proof.
  intros W L (A & B). destruct (rows_nth rows row0 W) as (P & Q). assert (T : 0 < tol) by (unfold tol; lra).
  assert (last : forall k, (k < length rows)%nat -> row_start (nth k rows row0) <= row_stop (nth (length rows - 1) rows row0)).
  { intros k Hk. destruct (Nat.eq_dec k (length rows - 1)) as [->|N]. { left. apply P. lia. }
    pose proof (Q k (length rows - 1)%nat ltac:(lia) ltac:(lia)). pose proof (P k Hk). pose proof (P (length rows - 1)%nat ltac:(lia)). lra. }
  assert (inc : forall k, (S k < length rows)%nat -> row_start (nth k rows row0) < row_start (nth (S k) rows row0)).
  { intros k Hk. pose proof (P k ltac:(lia)). pose proof (Q k (S k) ltac:(lia) Hk). lra. }
  pose proof (last (S i) L) as Ls.
  assert (G : forall j, (S j < length rows)%nat -> time_index (columns rows) t = Ok (Some j) \/ (S (S j) = length rows /\ time_index (columns rows) t = Ok (Some (S j))) ->
    axis_at (columns rows) (map pick rows) t = Ok (let f := (t - row_start (nth j rows row0)) / (row_start (nth (S j) rows row0) - row_start (nth j rows row0)) in
    v_unit (v_add (v_scale (1 - f) (pick (nth j rows row0))) (v_scale f (pick (nth (S j) rows row0)))))).
  { intros j Hj H. unfold axis_at. rewrite map_length.
    assert (E : exists k, time_index (columns rows) t = Ok (Some k) /\ Nat.min k (length rows - 2) = j). { destruct H as [H|[H1 H]]; eexists; (split; [exact H|lia]). }
    destruct E as (k & E & M). rewrite E. cbn [obind]. rewrite index_min_ok by lia. rewrite M. cbn [option_map at_opt columns sc_start].
    rewrite !(at_map _ _ _ row0) by lia. cbn [obind]. pose proof (inc j Hj).
    destruct (Reqb_spec (row_start (nth (S j) rows row0) - row_start (nth j rows row0)) 0); [lra|]. do 2 apply f_equal. apply v_mix. }
  destruct (Rlt_dec t (row_start (nth (S i) rows row0))) as [H|H].
  - apply (G i L). left. apply time_index_at; auto; try lia. lra.
  - assert (E : t = row_start (nth (S i) rows row0)) by lra. destruct (Nat.eq_dec (S (S i)) (length rows)) as [K|K].
    + apply (G i L). right. split; auto. apply time_index_at; auto; try lia; lra.
    + pose proof (G (S i) ltac:(lia)) as G'.
      assert (T1 : time_index (columns rows) t = Ok (Some (S i))). { apply time_index_at; auto; try lia; try lra. right. pose proof (inc (S i) ltac:(lia)). lra. }
      specialize (G' (or_introl T1)). rewrite G'. do 2 apply f_equal. cbn zeta.
      pose proof (inc i L). pose proof (inc (S i) ltac:(lia)).
      replace ((t - row_start (nth (S i) rows row0)) / (row_start (nth (S (S i)) rows row0) - row_start (nth (S i) rows row0))) with 0 by (rewrite E; field; lra).
      replace ((t - row_start (nth i rows row0)) / (row_start (nth (S i) rows row0) - row_start (nth i rows row0))) with 1 by (rewrite E; field; lra).
      destruct (pick (nth i rows row0)) as [[a1 a2] a3], (pick (nth (S i) rows row0)) as [[b1 b2] b3], (pick (nth (S (S i)) rows row0)) as [[c1 c2] c3].
      unfold v_add, v_scale. f_equal; [f_equal|]; ring.
Qed.

(** ** Reading *)
Lemma columns_app l r : columns (l ++ [r]) = mk_sc (sc_start (columns l) ++ [row_start r]) (sc_stop (columns l) ++ [row_stop r]) (sc_live (columns l) ++ [row_live r]) (sc_x (columns l) ++ [fst (row_dir r)]) (sc_z (columns l) ++ [snd (row_dir r)]).
Proof. unfold columns. rewrite !map_app. reflexivity. Qed.
(** From the third row on the start times do not go back. *)
Definition ordered_tail (l : list R) : Prop := forall i, (0 < i)%nat -> (S i < length l)%nat -> nth i l 0 <= nth (S i) l 0.
Lemma push_ok a b : forall rows kept sc, ordered_tail (sc_start (columns kept)) -> mfold (sc_push a b) rows (columns kept) = Ok sc ->
  sc = columns (kept ++ filter (fun r => negb (Rltb (row_stop r) a || Rltb b (row_start r))) rows) /\ ordered_tail (sc_start sc).
Proof.
  induction rows as [|r rows IH]; intros kept sc T H; cbn [mfold] in H.
  - injection H as <-. rewrite app_nil_r. auto.
  - unfold sc_push at 1 in H. cbn [filter]. destruct (Rltb (row_stop r) a || Rltb b (row_start r)). { cbn [obind] in H. simpl. now apply IH. }
    destruct ((1 <? length (sc_start (columns kept)))%nat && Rltb (row_start r) (last (sc_start (columns kept)) 0)) eqn:E; [discriminate|].
    cbn [obind negb] in *. rewrite <- columns_app in H. apply IH in H.
    + rewrite <- app_assoc in H. exact H.
    + rewrite columns_app. cbn [sc_start]. set (l := sc_start (columns kept)) in *. intros i Hi Hl. rewrite app_length in Hl. simpl in Hl.
      destruct (Nat.eq_dec (S i) (length l)) as [K|K].
      * rewrite (app_nth1 l) by lia. rewrite (app_nth2 l) by lia. rewrite K, Nat.sub_diag. simpl.
        apply andb_false_iff in E. destruct E as [E|E]; [apply Nat.ltb_ge in E; lia|]. destruct (Rltb_spec (row_start r) (last l 0)) as [|G]; [discriminate|].
        replace (nth i l 0) with (last l 0); [lra|]. clear -K. revert i K. induction l as [|x l IH]; intros i K; [discriminate|]. simpl in K. injection K as ->.
        destruct l; [reflexivity|]. cbn [length]. change (last (x :: r :: l) 0) with (last (r :: l) 0). apply (IH (length l)). reflexivity.
      * rewrite !(app_nth1 l) by lia. apply T; lia.
Qed.
Definition kept (printed : R -> R) (tstart tstop : R) (rows : list sc_row) : list sc_row :=
  filter (fun r => negb (Rltb (row_stop r) (tstart - 60) || Rltb (tstop + 60) (row_start r)))
    (filter (fun r => Rleb (printed (tstart - 60)) (row_start r) && Rleb (row_stop r) (printed (tstop + 60))) rows).
Lemma read_ok printed a b : forall files sc0 sc, ordered_tail (sc_start (columns sc0)) -> mfold (sc_read_file printed a b) files (columns sc0) = Ok sc ->
  sc = columns (sc0 ++ concat (map (kept printed a b) files)) /\ ordered_tail (sc_start sc).
Proof.
  induction files as [|f files IH]; intros sc0 sc T H; cbn [mfold map concat] in *.
  - injection H as <-. rewrite app_nil_r. auto.
  - destruct (sc_read_file printed a b (columns sc0) f) as [s1| |] eqn:E; try discriminate. cbn [obind] in H.
    unfold sc_read_file in E. replace (2 * 30) with 60 in E by lra. apply push_ok in E; auto. destruct E as (-> & T1). apply IH in H; auto.
    rewrite <- app_assoc in H. exact H.
Qed.

(** ** The exposure *)
Section Exposure.
  Variable eff_area efficiency : R -> R -> R.
  Variable inclination : vec3 -> R.
  Variables cuts gtis : list (R * R).
  Hypothesis O : in_order gtis.
  Hypothesis N : gtis <> [].
  Notation contrib := (exposure_of eff_area efficiency inclination cuts gtis).
  Lemma step_ok rows energies (g : R -> R) i : rows_in_order rows -> (i < length rows)%nat ->
    exposure_step eff_area efficiency inclination (columns rows) cuts gtis energies (map g energies) i = Ok (map (fun e => g e + contrib e (nth i rows row0)) energies).
  Proof.
    intros W L. destruct (rows_nth rows row0 W) as (P & _). unfold exposure_step. cbn [columns sc_start sc_stop sc_live sc_z]. rewrite !(at_map _ _ _ row0) by lia. cbn [obind].
    destruct (share_ok cuts gtis _ _ (P i L) O N) as (ok & E & Z). rewrite E. cbn [obind fst snd]. unfold exposure_of.
    destruct (Rltb_spec 90 (inclination (snd (row_dir (nth i rows row0))))) as [H|H]; destruct (Rle_dec (inclination (snd (row_dir (nth i rows row0)))) 90) as [H'|H']; try lra.
    - f_equal. apply map_ext. intros e. now rewrite Rplus_0_r.
    - destruct ok.
      + f_equal. induction energies as [|e es IH]; simpl; auto. rewrite IH. reflexivity.
      + rewrite Z by auto. f_equal. apply map_ext. intros e. ring.
  Qed.
  Lemma steps_ok rows energies : rows_in_order rows -> forall n a (g : R -> R), (a + n <= length rows)%nat ->
    mfold (exposure_step eff_area efficiency inclination (columns rows) cuts gtis energies) (seq a n) (map g energies) =
    Ok (map (fun e => g e + Rsum (map (fun i => contrib e (nth i rows row0)) (seq a n))) energies).
  Proof.
    intros W. induction n as [|n IH]; intros a g L; cbn [seq mfold map].
    - f_equal. apply map_ext. intros e. unfold Rsum. simpl. now rewrite Rplus_0_r.
    - rewrite step_ok by (auto; lia). cbn [obind]. rewrite IH by lia. f_equal. apply map_ext. intros e. unfold Rsum. cbn [fold_right]. ring.
  Qed.
  Lemma exposure_ok rows energies max_time old : rows_in_order rows -> rows <> [] -> (forall g, In g gtis -> snd g <= max_time) ->
    row_start (nth 0 rows row0) - tol <= max_time <= row_stop (nth (length rows - 1) rows row0) ->
    compute_exposure eff_area efficiency inclination (columns rows) cuts gtis max_time energies old = Ok (map (fun e => Rsum (map (contrib e) rows)) energies).
  Proof.
    intros W NE G (A & B). assert (L : (0 < length rows)%nat) by (destruct rows; [congruence|simpl; lia]). assert (T : 0 < tol) by (unfold tol; lra).
    destruct (rows_nth rows row0 W) as (P & Q).
    unfold compute_exposure. cbn [columns sc_start]. rewrite map_length. destruct (Nat.eqb_spec (length rows) 0); [lia|].
    unfold exposure_npts. cbn [columns sc_stop sc_start]. rewrite map_length, (at_map _ _ _ row0) by lia. cbn [obind].
    destruct (Rleb_spec max_time (row_stop (nth (length rows - 1) rows row0))); [|lra].
    destruct (time_index_ok rows max_time W NE A ltac:(lra)) as (u & E & Lu & Lo & Hi).
    change (mk_sc (map row_start rows) (map row_stop rows) (map row_live rows) (map (fun r : ft2 (vec3 * vec3) => fst (row_dir r)) rows) (map (fun r : ft2 (vec3 * vec3) => snd (row_dir r)) rows)) with (columns rows).
    rewrite E. cbn [obind].
    replace (match minus1 u with Some i => (i + 1)%nat | None => 0%nat end) with u by (destruct u; simpl; lia).
    replace (repeat 0 (length energies)) with (map (fun _ : R => 0) energies) by (clear; induction energies; simpl; congruence).
    rewrite steps_ok by (auto; lia). f_equal. apply map_ext. intros e. rewrite Rplus_0_l, (map_seq_nth (contrib e) rows row0). symmetry.
    replace (Nat.min u (length rows)) with u by lia. replace (seq 0 u) with (seq 0 (u - 0)) by (now rewrite Nat.sub_0_r).
    apply (sum_split (fun i => contrib e (nth i rows row0))); try lia.
    intros i H1 H2. unfold exposure_of. rewrite share_late.
    - destruct (Rle_dec _ 90); ring.
    - left. now apply P.
    - intros g Hg. pose proof (G g Hg). pose proof (Hi i H1 H2). lra.
  Qed.
  Lemma exposure_short rows energies max_time old : rows_in_order rows -> rows <> [] -> row_stop (nth (length rows - 1) rows row0) < max_time ->
    compute_exposure eff_area efficiency inclination (columns rows) cuts gtis max_time energies old = Ok (map (fun e => Rsum (map (contrib e) (removelast rows))) energies).
  Proof.
    intros W NE A. assert (L : (0 < length rows)%nat) by (destruct rows; [congruence|simpl; lia]).
    unfold compute_exposure, exposure_npts. cbn [columns sc_start sc_stop]. rewrite map_length. destruct (Nat.eqb_spec (length rows) 0); [lia|].
    rewrite (at_map _ _ _ row0) by lia. cbn [obind].
    destruct (Rleb_spec max_time (row_stop (nth (length rows - 1) rows row0))); [lra|]. cbn [obind].
    replace (repeat 0 (length energies)) with (map (fun _ : R => 0) energies) by (clear; induction energies; simpl; congruence).
    replace (Nat.min (length rows - 1) (length rows)) with (length rows - 1)%nat by lia.
    etransitivity; [exact (steps_ok rows energies W (length rows - 1) 0 (fun _ => 0) ltac:(lia))|]. f_equal. apply map_ext. intros e. rewrite Rplus_0_l. f_equal.
    assert (F : removelast rows = firstn (length rows - 1) rows) by (rewrite removelast_firstn_len; f_equal; lia).
    rewrite F, (map_seq_nth (contrib e) (firstn (length rows - 1) rows) row0), firstn_length. replace (Nat.min (length rows - 1) (length rows)) with (length rows - 1)%nat by lia.
    apply map_ext_in. intros i Hi. apply in_seq in Hi. f_equal.
    transitivity (nth i (firstn (length rows - 1) rows ++ skipn (length rows - 1) rows) row0); [now rewrite firstn_skipn|]. rewrite app_nth1; [reflexivity|]. rewrite firstn_length. lia.
  Qed.
End Exposure.

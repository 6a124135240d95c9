From Coq Require Import Reals Lra Lia.
From Coquelicot Require Import Coquelicot.
From Verif Require Import Base AccumModel AccumProofs EvtModel EvtProofs LtModel LtSpec LtProofs.
Local Open Scope R_scope.

Lemma wanted_good cuts gtis t : gtis <> [] -> wanted cuts gtis t = good cuts gtis t.
Proof. intros H. unfold wanted, good. destruct gtis; congruence. Qed.
Lemma share_ok cuts gtis s e : s < e -> in_order gtis -> gtis <> [] ->
  exists ok, accept_interval s e cuts gtis = Ok (ok, good_share cuts gtis s e) /\ (ok = false -> good_share cuts gtis s e = 0).
Proof.
  intros L O N. destruct (accept_ok cuts gtis s e L O) as (ok & f & E & D & B & F). exists ok.
  assert (G : good_share cuts gtis s e = f).
  { unfold good_share. rewrite (is_RInt_unique (V := R_CompleteNormedModule) _ s e (f * (e - s))); [field; lra|].
    revert D. apply (is_RInt_ext (V := R_NormedModule)). intros t _. unfold indicator. now rewrite wanted_good. }
  rewrite G. split; auto.
Qed.
Lemma share_zero cuts gtis s e : s <= e -> (forall t, s < t < e -> forall g, In g gtis -> ~ (fst g <= t < snd g)) -> good_share cuts gtis s e = 0.
Proof.
  intros L H. unfold good_share. rewrite (is_RInt_unique (V := R_CompleteNormedModule) _ s e 0). { unfold Rdiv. ring. }
  apply zero_RInt; auto. intros t Ht. unfold indicator, good. destruct (existsb (inside t) gtis) eqn:E; [|now rewrite andb_false_r].
  exfalso. apply existsb_exists in E. destruct E as (g & Hg & I). destruct (inside_spec t g) as [J|J]; [|discriminate]. exact (H t Ht g Hg J).
Qed.
Lemma share_early cuts gtis s e : s <= e -> (forall g, In g gtis -> e <= fst g) -> good_share cuts gtis s e = 0.
Proof. intros L H. apply share_zero; auto. intros t Ht g Hg J. pose proof (H g Hg). lra. Qed.
Lemma share_late cuts gtis s e : s <= e -> (forall g, In g gtis -> snd g <= s) -> good_share cuts gtis s e = 0.
Proof. intros L H. apply share_zero; auto. intros t Ht g Hg J. pose proof (H g Hg). lra. Qed.

Lemma limits_ok gtis lo hi : gti_limits gtis = Ok (lo, hi) -> gtis <> [] /\ forall g, In g gtis -> lo <= fst g /\ snd g <= hi.
Proof.
  destruct gtis as [|g0 rest]; intros H; [discriminate|]. split; [discriminate|]. unfold gti_limits in H. injection H as H.
  assert (K : forall l init r, fold_left (fun lim g : R * R => (if Rltb (fst g) (fst lim) then fst g else fst lim, if Rltb (snd lim) (snd g) then snd g else snd lim)) l init = r ->
    (fst r <= fst init /\ snd init <= snd r) /\ forall g, In g l -> fst r <= fst g /\ snd g <= snd r).
  { induction l as [|a l IH]; intros init r E; simpl in E. { subst. split; [lra|]. intros g []. }
    apply IH in E. cbn [fst snd] in E. destruct E as ((A & B) & C).
    assert (D : fst r <= fst init /\ fst r <= fst a /\ snd init <= snd r /\ snd a <= snd r).
    { destruct (Rltb_spec (fst a) (fst init)), (Rltb_spec (snd init) (snd a)); lra. }
    split; [lra|]. intros g [<-|Hg]; [lra|auto]. }
  destruct (K _ _ _ H) as (A & B). cbn [fst snd] in *. intros g [<-|Hg]; [exact A|exact (B g Hg)].
Qed.

Section Load.
  Context {D : Type}.
  Variables cuts gtis : list (R * R).
  Hypothesis O : in_order gtis.
  Hypothesis N : gtis <> [].
  Implicit Types (r : ft2 D) (rows : list (ft2 D)).
  Lemma rows_cons r rows : rows_in_order (r :: rows) -> row_start r < row_stop r /\ rows_in_order rows /\ forall q, In q rows -> row_stop r <= row_start q.
  Proof.
    intros (A & B). inversion B; subst. split; auto. split; [split; auto; simpl in A; tauto|].
    intros q Hq. cbn [map] in A. pose proof (in_order_after _ _ A (row_start q, row_stop q)) as P. apply P. apply in_map_iff. exists q. auto.
  Qed.
  Lemma quiet_rows rows : (forall r, In r rows -> good_share cuts gtis (row_start r) (row_stop r) = 0) -> filter some_livetime (map (expected_fill cuts gtis) rows) = [].
  Proof.
    induction rows as [|r rows IH]; intros H; simpl; auto. unfold some_livetime at 1, expected_fill at 1. cbn [fst snd]. rewrite H by (left; auto).
    rewrite Rmult_0_r. destruct (Reqb_spec 0 0); [|lra]. simpl. apply IH. intros q Hq. apply H. now right.
  Qed.
  Lemma loop_ok tmax : (forall g, In g gtis -> snd g <= tmax) -> forall rows start acc, rows_in_order rows -> (forall r, In r rows -> start <= row_start r) ->
    exists fs, load_loop cuts gtis tmax rows start acc = Ok (fst acc ++ fs, (snd acc + length fs)%nat) /\ filter some_livetime fs = filter some_livetime (map (expected_fill cuts gtis) rows).
  Proof.
    intros T. induction rows as [|r rows IH]; intros start acc W S; cbn [load_loop].
    - exists []. rewrite app_nil_r, Nat.add_0_r. split; [destruct acc|]; reflexivity.
    - destruct (rows_cons _ _ W) as (L & W' & A). destruct (Rltb_spec start tmax) as [H|H].
      + destruct (share_ok cuts gtis (row_start r) (row_stop r) L O N) as (ok & E & Z). rewrite E. cbn [obind].
        set (s := good_share cuts gtis (row_start r) (row_stop r)) in *.
        assert (S' : forall q, In q rows -> row_start r <= row_start q) by (intros q Hq; pose proof (A q Hq); lra).
        destruct ok.
        * destruct (IH (row_start r) (fst acc ++ [(row_dir r, row_live r * s, row_live r * s * (row_live r / (row_stop r - row_start r)))], Datatypes.S (snd acc)) W' S') as (fs & F & G).
          cbn [fst snd] in F. rewrite F. eexists (_ :: fs). rewrite <- app_assoc. split.
          { cbn [length app]. do 2 f_equal. lia. }
          cbn [map filter]. unfold expected_fill at 1. fold s. cbn zeta. rewrite G. reflexivity.
        * destruct (IH (row_start r) acc W' S') as (fs & F & G). exists fs. split; auto. rewrite G. cbn [map filter].
          unfold some_livetime at 2, expected_fill at 2. fold s. cbn [fst snd]. rewrite Z by auto. rewrite Rmult_0_r. destruct (Reqb_spec 0 0); [|lra]. reflexivity.
      + exists []. rewrite app_nil_r, Nat.add_0_r. split; [destruct acc; reflexivity|].
        rewrite quiet_rows; [reflexivity|]. intros q Hq. apply share_late.
        * destruct W as (_ & W). rewrite Forall_forall in W. left. now apply W.
        * intros g Hg. pose proof (S q Hq). pose proof (T g Hg). lra.
  Qed.
  Lemma rows_skip i : forall rows, rows_in_order rows -> rows_in_order (skipn i rows).
  Proof. induction i; intros [|r rows] W; simpl; auto. apply IHi. now apply rows_cons in W. Qed.
  Lemma rows_nth rows d : rows_in_order rows -> (forall i, (i < length rows)%nat -> row_start (nth i rows d) < row_stop (nth i rows d)) /\ (forall i j, (i < j)%nat -> (j < length rows)%nat -> row_stop (nth i rows d) <= row_start (nth j rows d)).
  Proof.
    induction rows as [|k l IH]; intros H; [split; simpl; intros; lia|].
    destruct (rows_cons _ _ H) as (L & H' & F). destruct (IH H') as (A & B). split.
    - intros [|i] Hi; [exact L|]. simpl in *. apply A. lia.
    - intros [|i] [|j] Hij Hj; try lia; simpl in *.
      + apply F. apply nth_In. lia.
      + apply B; lia.
  Qed.
  Lemma first_after_ok tmin rows d : (first_after tmin rows <= length rows)%nat /\ forall i, (i < first_after tmin rows)%nat -> row_start (nth i rows d) <= tmin.
  Proof.
    induction rows as [|r rows IH]; simpl. { split; [lia|]. intros i Hi. lia. }
    destruct (Rltb_spec tmin (row_start r)). { split; [lia|]. intros i Hi. lia. }
    destruct IH as (A & B). split; [lia|]. intros [|i] Hi; [lra|]. apply B. lia.
  Qed.
  Lemma load_ok tmin tmax rows acc : gti_limits gtis = Ok (tmin, tmax) -> rows_in_order rows -> rows <> [] ->
    exists fs, load cuts gtis tmin tmax rows acc = Ok (fst acc ++ fs, (snd acc + length fs)%nat) /\ filter some_livetime fs = filter some_livetime (map (expected_fill cuts gtis) rows).
  Proof.
    intros Lim W NE. destruct (limits_ok _ _ _ Lim) as (_ & B). unfold load. destruct (Nat.eqb_spec (length rows) 0) as [Z|Z]. { destruct rows; [congruence|discriminate]. }
    destruct rows as [|d0 rest] eqn:ER; [congruence|]. rewrite <- ER in *. clear ER rest.
    set (i := if (first_after tmin rows =? 0)%nat then first_after tmin rows else (first_after tmin rows - 1)%nat).
    destruct (first_after_ok tmin rows d0) as (L1 & L2). destruct (rows_nth rows d0 W) as (P & Q).
    assert (Hi : (i < length rows)%nat) by (unfold i; destruct (Nat.eqb_spec (first_after tmin rows) 0); lia).
    rewrite (vec_get_ok rows i d0 Hi). cbn [obind].
    destruct (loop_ok tmax (fun g Hg => proj2 (B g Hg)) (skipn i rows) (row_start (nth i rows d0)) acc) as (fs & F & G).
    - now apply rows_skip.
    - intros r Hr. apply (In_nth _ _ d0) in Hr. destruct Hr as (k & Hk & <-). rewrite skipn_length in Hk. rewrite skipn_nth.
      destruct k. { rewrite Nat.add_0_r. lra. } pose proof (Q i (i + S k)%nat ltac:(lia) ltac:(lia)). pose proof (P i Hi). lra.
    - exists fs. split; auto. rewrite G. replace (map (expected_fill cuts gtis) rows) with (map (expected_fill cuts gtis) (firstn i rows ++ skipn i rows)) by (now rewrite firstn_skipn). rewrite map_app, filter_app, (quiet_rows (firstn i rows)); [reflexivity|].
      intros r Hr. apply (In_nth _ _ d0) in Hr. destruct Hr as (k & Hk & <-). rewrite firstn_length in Hk.
      assert (E : nth k (firstn i rows) d0 = nth k rows d0). { transitivity (nth k (firstn i rows ++ skipn i rows) d0); [|now rewrite firstn_skipn]. rewrite app_nth1; [reflexivity|]. rewrite firstn_length. lia. }
      rewrite E. apply share_early. { left. apply P. lia. }
      intros g Hg. destruct (B g Hg) as (B1 & _). unfold i in *. destruct (Nat.eqb_spec (first_after tmin rows) 0); [lia|].
      pose proof (L2 (first_after tmin rows - 1)%nat ltac:(lia)). pose proof (Q k (first_after tmin rows - 1)%nat ltac:(lia) ltac:(lia)). lra.
  Qed.
End Load.

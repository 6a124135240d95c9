From Coq Require Import Reals List Bool Arith String Lia.
From Verif Require Import Base AccumModel SparseModel DrmModel CmapProofs CmapProofs2 FioModel FioSpec.
Import ListNotations.
Local Open Scope string_scope.
Local Open Scope list_scope.
Local Open Scope nat_scope.

Lemma mfold_inv {A S} (P : S -> Prop) (f : S -> A -> outcome S) l : (forall s a, In a l -> P s -> exists s', f s a = Ok s' /\ P s') -> forall s, P s -> exists s', mfold f l s = Ok s' /\ P s'.
Proof.
  induction l as [|a l IH]; intros H s Hs; cbn [mfold]; [eauto|]. destruct (H s a (or_introl eq_refl) Hs) as (s1 & E & H1). rewrite E. cbn [obind]. apply IH; [|exact H1]. intros s2 b Hb. apply H. now right.
Qed.
Lemma firstn_add {A} (l : list A) a b : firstn (a + b) l = firstn a l ++ firstn b (skipn a l).
Proof. revert l; induction a as [|a IH]; intros [|x l]; cbn; auto; [now rewrite firstn_nil|]. now rewrite IH. Qed.

Section Dense.
Context {T : Type}.
Variable zero : T.
Notation table := (@table T).
Definition plane (npix : nat) (data : list T) (i : nat) : list T := firstn npix (skipn (i * npix) data).
Lemma plane_length npix data i n : length data = n * npix -> i < n -> length (plane npix data i) = npix.
Proof. intros L Hi. unfold plane. rewrite firstn_length, skipn_length, L. nia. Qed.
Lemma concat_planes npix data n : concat (map (plane npix data) (seq 0 n)) = firstn (n * npix) data.
Proof. induction n as [|n IH]; [reflexivity|]. rewrite seq_S', map_app, concat_app, IH. cbn [map concat]. rewrite app_nil_r. replace (S n * npix) with (n * npix + npix) by lia. now rewrite firstn_add. Qed.

Definition chans (vs : list (list T)) : list (colname * list T) := map (fun i => (Channel (i + 1), nth i vs [])) (seq 0 (length vs)).
Lemma chans_length vs : length (chans vs) = length vs. Proof. unfold chans. now rewrite map_length, seq_length. Qed.
Lemma chans_snoc vs v : chans (vs ++ [v]) = chans vs ++ [(Channel (length vs + 1), v)].
Proof.
  unfold chans. rewrite app_length. cbn [length]. rewrite Nat.add_1_r, seq_S', map_app. cbn [map]. f_equal.
  - apply map_ext_in. intros i Hi. apply in_seq in Hi. now rewrite app_nth1 by lia.
  - rewrite app_nth2, Nat.sub_diag by lia. now rewrite ?Nat.add_1_r.
Qed.
Lemma pad_same n (l : list T) : length l = n -> pad zero n l = l.
Proof. intros <-. unfold pad. rewrite Nat.sub_diag. cbn. apply app_nil_r. Qed.
Definition nochan (P : list (colname * list T)) : Prop := forall c l, In (c, l) P -> is_channel c = false.
Definition sized (n : nat) (P : list (colname * list T)) : Prop := forall c l, In (c, l) P -> length l = n.

Lemma write_cols rows npix P c vals : length vals = npix -> rows = npix -> sized npix P ->
  write_column zero (mk_table rows P) c vals = mk_table npix (map (fun x => if colname_eqb (fst x) c then (fst x, vals) else x) P).
Proof.
  intros L -> HP. unfold write_column. cbn [t_rows t_cols]. rewrite L, Nat.max_id. f_equal. apply map_ext_in. intros [d l] Hin. cbn [fst snd]. rewrite (pad_same npix l) by exact (HP _ _ Hin).
  destruct (colname_eqb d c); [|reflexivity]. rewrite skipn_all2 by (rewrite (HP _ _ Hin); lia). now rewrite app_nil_r.
Qed.
Lemma eqb_nochan c n : is_channel c = false -> colname_eqb c (Channel n) = false.
Proof. destruct c; cbn; congruence. Qed.

Lemma write_plane npix P vs j vals rows : rows = npix \/ (rows = 0 /\ P = [] /\ vs = []) -> nochan P -> sized npix P -> (forall v, In v vs -> length v = npix) -> length vals = npix -> j <= length vs ->
  write_column zero (need_column zero (mk_table rows (P ++ chans vs)) (Channel (j + 1))) (Channel (j + 1)) vals
  = mk_table npix (P ++ chans (if j <? length vs then upd vs j vals else vs ++ [vals])).
Proof.
  intros HR HN HS HV L Hj. unfold need_column. cbn [t_rows t_cols]. rewrite existsb_app.
  replace (existsb (fun x => colname_eqb (fst x) (Channel (j + 1))) P) with false.
  2:{ symmetry. apply not_true_iff_false. intros E. apply existsb_exists in E. destruct E as ((c & l) & I & E). cbn in E. rewrite eqb_nochan in E; [discriminate|]. exact (HN _ _ I). }
  cbn [orb].
  assert (HPm : map (fun x => if colname_eqb (fst x) (Channel (j + 1)) then (fst x, vals) else x) P = P).
  { rewrite <- (map_id P) at 2. apply map_ext_in. intros (c & l) I. cbn [fst]. rewrite eqb_nochan; [reflexivity|]. exact (HN _ _ I). }
  assert (HC : sized npix (chans vs)).
  { intros c l I. unfold chans in I. apply in_map_iff in I. destruct I as (i & E & I). injection E as _ <-. apply in_seq in I. apply HV, nth_In. lia. }
  destruct (Nat.ltb_spec j (length vs)) as [Hl|Hl].
  - replace (existsb (fun x => colname_eqb (fst x) (Channel (j + 1))) (chans vs)) with true.
    2:{ symmetry. apply existsb_exists. exists (Channel (j + 1), nth j vs []). split; [|cbn; apply Nat.eqb_refl]. unfold chans. apply in_map_iff. exists j. split; [reflexivity|]. apply in_seq. lia. }
    destruct HR as [HR|(_ & _ & ->)]; [|cbn in Hl; lia]. rewrite (write_cols rows npix) by first [exact L|exact HR|intros c l I; apply in_app_or in I; destruct I; [eapply HS|eapply HC]; eassumption].
    rewrite map_app, HPm. do 2 f_equal. unfold chans. rewrite map_map, upd_length. apply map_ext_in. intros i Hi. apply in_seq in Hi. cbn [fst colname_eqb].
    destruct (Nat.eqb_spec (i + 1) (j + 1)) as [E|E].
    + replace i with j by lia. now rewrite nth_upd_eq by lia.
    + now rewrite nth_upd_neq by lia.
  - replace (existsb (fun x => colname_eqb (fst x) (Channel (j + 1))) (chans vs)) with false.
    2:{ symmetry. apply not_true_iff_false. intros E. apply existsb_exists in E. destruct E as (x & I & E). unfold chans in I. apply in_map_iff in I. destruct I as (i & <- & I). cbn in E. apply Nat.eqb_eq in E. apply in_seq in I. lia. }
    replace j with (length vs) in * by lia. rewrite chans_snoc. destruct HR as [->|(-> & -> & ->)].
    + rewrite (write_cols npix npix) by first [exact L|reflexivity|intros c l I; apply in_app_or in I; destruct I as [I|I]; [apply in_app_or in I; destruct I; [eapply HS|eapply HC]; eassumption|destruct I as [I|[]]; injection I as _ <-; apply repeat_length]].
      rewrite <- app_assoc, !map_app, HPm. cbn [map fst colname_eqb]. rewrite Nat.eqb_refl. do 3 f_equal. rewrite <- (map_id (chans vs)) at 2. apply map_ext_in. intros x I. unfold chans in I. apply in_map_iff in I. destruct I as (i & <- & I). apply in_seq in I. cbn [fst colname_eqb].
      destruct (Nat.eqb_spec (i + 1) (length vs + 1)) as [E|E]; [lia|reflexivity].
    + unfold write_column, need_column. cbn. rewrite L. now rewrite skipn_all2, app_nil_r by (unfold pad; cbn; rewrite repeat_length; lia).
Qed.

Definition pixcol (pix : option (list T)) : list (colname * list T) := match pix with Some p => [(Pix, p)] | None => [] end.
Lemma planes_loop npix data n kmin P vs rows : length data = n * npix -> rows = npix \/ (rows = 0 /\ P = [] /\ vs = []) -> nochan P -> sized npix P -> (forall v, In v vs -> length v = npix) ->
  forall j, j <= n -> exists rows' vs', mfold (fun s k =>
    obind (slice data ((k - kmin) * npix) npix) (fun vals =>
    Ok (write_column zero (need_column zero s (Channel (k - kmin + 1))) (Channel (k - kmin + 1)) vals))) (seq kmin j) (mk_table rows (P ++ chans vs)) = Ok (mk_table rows' (P ++ chans vs')) /\
    (rows' = npix \/ (rows' = 0 /\ P = [] /\ vs' = [])) /\ (forall v, In v vs' -> length v = npix) /\ length vs' = Nat.max j (length vs) /\
    (forall i, i < j -> nth i vs' [] = plane npix data i) /\ (forall i, j <= i -> nth i vs' [] = nth i vs []).
Proof.
  intros L HR HN HS HV. induction j as [|j IH]; intros Hj.
  - exists rows, vs. cbn [seq mfold]. split; [reflexivity|]. split; [exact HR|]. split; [exact HV|]. split; [lia|]. split; [lia|]. reflexivity.
  - destruct IH as (r1 & v1 & E & HR1 & HV1 & L1 & V1 & V2); [lia|]. rewrite seq_S, mfold_app, E. cbn [obind mfold].
    replace (kmin + j - kmin) with j by lia. unfold slice. destruct (Nat.ltb_spec (length data) (j * npix + npix)) as [X|_]; [nia|]. cbn [obind].
    assert (Lp := plane_length npix data j n L Hj). fold (plane npix data j). rewrite (write_plane npix P v1 j) by (try assumption; lia).
    eexists. eexists. split; [reflexivity|]. split; [now left|]. destruct (Nat.ltb_spec j (length v1)) as [Hl|Hl].
    + split. { intros v Hv. apply In_nth with (d := []) in Hv. destruct Hv as (i & Hi & <-). rewrite upd_length in Hi. destruct (Nat.eq_dec i j) as [->|Hne]; [now rewrite nth_upd_eq|rewrite nth_upd_neq by lia; apply HV1, nth_In, Hi]. }
      split; [rewrite upd_length; lia|]. split.
      * intros i Hi. destruct (Nat.eq_dec i j) as [->|Hne]; [now rewrite nth_upd_eq|]. rewrite nth_upd_neq by lia. apply V1. lia.
      * intros i Hi. rewrite nth_upd_neq by lia. apply V2. lia.
    + split. { intros v Hv. apply in_app_or in Hv. destruct Hv as [Hv|[<-|[]]]; [now apply HV1|exact Lp]. }
      split; [rewrite app_length; cbn [length]; lia|]. split.
      * intros i Hi. destruct (Nat.eq_dec i j) as [->|Hne]. { rewrite app_nth2 by lia. replace (j - length v1) with 0 by lia. reflexivity. } rewrite app_nth1 by lia. apply V1. lia.
      * intros i Hi. rewrite (nth_overflow (v1 ++ _)), (nth_overflow vs); [reflexivity|lia|rewrite app_length; cbn; lia].
Qed.
Lemma read_shape rows P vs : nochan P -> read_dense (mk_table rows (P ++ chans vs)) = (concat vs, length vs).
Proof.
  intros HN. unfold read_dense. cbn [t_cols]. rewrite filter_app.
  replace (filter (fun x => is_channel (fst x)) P) with (@nil (colname * list T)).
  2:{ symmetry. assert (forall l, (forall c v, In (c, v) l -> is_channel c = false) -> filter (fun x : colname * list T => is_channel (fst x)) l = []) as K; [|exact (K P HN)].
      induction l as [|(c & v) l IH]; intros H; [reflexivity|]. cbn [filter fst]. rewrite (H c v (or_introl eq_refl)). apply IH. intros c' v' I. apply (H c' v'). now right. }
  cbn [app]. replace (filter (fun x => is_channel (fst x)) (chans vs)) with (chans vs).
  2:{ unfold chans. induction (seq 0 (length vs)) as [|i l IH]; [reflexivity|]. cbn [map filter fst is_channel]. now rewrite <- IH. }
  rewrite chans_length. do 2 f_equal. unfold chans. rewrite map_map. cbn [snd]. apply (list_ext_nth _ _ []).
  - now rewrite map_length, seq_length.
  - intros i Hi. rewrite map_length, seq_length in Hi. rewrite (nth_indep _ [] (nth 0 vs [])) by now rewrite map_length, seq_length. rewrite (map_nth (fun k => nth k vs [])). now rewrite seq_nth.
Qed.
Lemma nochan_pix pix : nochan (pixcol pix). Proof. destruct pix as [p|]; intros c l I; [|contradiction]. destruct I as [I|[]]. now injection I as <- _. Qed.
Lemma sized_pix npix pix : (forall p, pix = Some p -> length p = npix) -> sized npix (pixcol pix).
Proof. intros H. destruct pix as [p|]; intros c l' I; [|contradiction]. destruct I as [I|[]]. injection I as _ <-. now apply H. Qed.

Lemma replace_shape npix pix data n kmin t : length data = n * npix -> (forall p, pix = Some p -> length p = npix) ->
  (t = new_table \/ exists vs, t = mk_table npix (pixcol pix ++ chans vs) /\ (forall v, In v vs -> length v = npix)) ->
  exists rows vs', replace_healpix zero t npix pix data kmin (kmin + n) = Ok (mk_table rows (pixcol pix ++ chans vs')) /\ (rows = npix \/ (rows = 0 /\ pixcol pix = [] /\ vs' = [])) /\ (forall v, In v vs' -> length v = npix) /\
    (forall i, i < n -> nth i vs' [] = plane npix data i) /\
    ((t = new_table -> length vs' = n) /\ forall vs, t = mk_table npix (pixcol pix ++ chans vs) -> length vs' = Nat.max n (length vs) /\ forall i, n <= i -> nth i vs' [] = nth i vs []).
Proof.
  intros L Hp Ht. unfold replace_healpix. replace (kmin + n - kmin) with n by lia.
  assert (exists rows vs, match pix with Some p => write_column zero (need_column zero t Pix) Pix p | None => t end = mk_table rows (pixcol pix ++ chans vs) /\ (rows = npix \/ (rows = 0 /\ pixcol pix = [] /\ vs = [])) /\ (forall v, In v vs -> length v = npix)
     /\ (t = new_table -> vs = []) /\ (forall vs', t = mk_table npix (pixcol pix ++ chans vs') -> vs = vs')) as (rows & vs & E & HR & HV & V1 & V2).
  { assert (CI : forall a b : list (list T), chans a = chans b -> a = b).
    { intros a b E. assert (La : length a = length b) by (rewrite <- (chans_length a), <- (chans_length b); now rewrite E). apply (list_ext_nth _ _ [] La). intros i Hi.
      assert (nth i (chans a) (Pix, []) = nth i (chans b) (Pix, [])) as Q by now rewrite E. unfold chans in Q. rewrite !(nth_indep _ (Pix, []) (Channel (0 + 1), nth 0 a [])) in Q by (rewrite map_length, seq_length; lia).
      rewrite (map_nth (fun k => (Channel (k + 1), nth k a []))) in Q. rewrite (nth_indep _ _ (Channel (0 + 1), nth 0 b [])) in Q by (rewrite map_length, seq_length; lia). rewrite (map_nth (fun k => (Channel (k + 1), nth k b []))) in Q. rewrite !seq_nth in Q by lia. now injection Q. }
    destruct Ht as [->|(vs & -> & HV)].
    - destruct pix as [p|].
      + exists npix, []. unfold write_column, need_column, new_table. cbn. rewrite (Hp p eq_refl). rewrite skipn_all2 by (unfold pad; cbn; rewrite repeat_length; lia). rewrite app_nil_r.
        split; [reflexivity|]. split; [now left|]. split; [intros v []|]. split; [reflexivity|]. intros vs' Q. unfold pixcol in Q. discriminate.
      + exists 0, []. split; [reflexivity|]. split; [right; auto|]. split; [intros v []|]. split; [reflexivity|]. intros vs' Q. unfold new_table in Q. injection Q as _ Q. destruct vs'; [reflexivity|discriminate].
    - exists npix, vs. destruct pix as [p|].
      + split. { unfold need_column. cbn [t_cols pixcol app existsb fst colname_eqb orb]. rewrite (write_cols npix npix); [|now apply Hp|reflexivity|].
          - cbn [map fst colname_eqb]. do 2 f_equal. rewrite <- (map_id (chans vs)) at 2. apply map_ext_in. intros x I. unfold chans in I. apply in_map_iff in I. destruct I as (i & <- & _). reflexivity.
          - intros c l [I|I]; [injection I as _ <-; now apply Hp|]. unfold chans in I. apply in_map_iff in I. destruct I as (i & Q & I). injection Q as _ <-. apply in_seq in I. apply HV, nth_In. lia. }
        split; [now left|]. split; [exact HV|]. split; [discriminate|]. intros vs' Q. injection Q as Q. now apply CI.
      + split; [reflexivity|]. split; [now left|]. split; [exact HV|]. split.
        * unfold new_table. cbn. intros Q. injection Q as _ Q. destruct vs; [reflexivity|discriminate].
        * intros vs' Q. injection Q as Q. now apply CI. }
  rewrite E. destruct (planes_loop npix data n kmin (pixcol pix) vs rows L HR (nochan_pix pix) (sized_pix npix pix Hp) HV n (le_n n)) as (r1 & v1 & E1 & HR1 & HV1 & L1 & V3 & V4).
  exists r1, v1. split; [exact E1|]. split; [exact HR1|]. split; [exact HV1|]. split; [exact V3|]. split.
  - intros Q. rewrite L1, (V1 Q). cbn. lia.
  - intros vs' Q. rewrite (V2 vs' Q) in L1, V4. split; [exact L1|exact V4].
Qed.
Lemma planes_list npix data n (vs : list (list T)) : length data = n * npix -> length vs = n -> (forall i, i < n -> nth i vs [] = plane npix data i) -> concat vs = data.
Proof.
  intros L Lv H. replace vs with (map (plane npix data) (seq 0 n)); [rewrite concat_planes, <- L; apply firstn_all|]. apply (list_ext_nth _ _ []); rewrite map_length, seq_length; [now rewrite Lv|]. intros i Hi.
  rewrite (nth_indep _ [] (plane npix data 0)) by now rewrite map_length, seq_length. rewrite map_nth, seq_nth by exact Hi. now rewrite H.
Qed.
Lemma dense_round_trip npix pix data n kmin : length data = n * npix -> (forall p, pix = Some p -> length p = npix) ->
  exists t, append_healpix zero npix pix data kmin (kmin + n) = Ok t /\ read_dense t = (data, n) /\ (forall p, pix = Some p -> In (Pix, p) (t_cols t)).
Proof.
  intros L Hp. destruct (replace_shape npix pix data n kmin new_table L Hp (or_introl eq_refl)) as (r & vs & E & HR & HV & V & (V1 & _)). exists (mk_table r (pixcol pix ++ chans vs)). split; [exact E|]. rewrite read_shape by apply nochan_pix. specialize (V1 eq_refl).
  rewrite (planes_list npix data n vs L V1 V), V1. split; [reflexivity|]. intros p ->. now left.
Qed.
Lemma dense_replace npix pix data1 n1 k1 data2 n2 k2 t : length data1 = n1 * npix -> length data2 = n2 * npix -> (forall p, pix = Some p -> length p = npix) -> n1 <= n2 ->
  append_healpix zero npix pix data1 k1 (k1 + n1) = Ok t -> exists t', replace_healpix zero t npix pix data2 k2 (k2 + n2) = Ok t' /\ read_dense t' = (data2, n2).
Proof.
  intros L1 L2 Hp Hn E0. destruct (replace_shape npix pix data1 n1 k1 new_table L1 Hp (or_introl eq_refl)) as (r & vs & E & HR & HV & V & (V1 & _)). specialize (V1 eq_refl). unfold append_healpix in E0. rewrite E in E0. injection E0 as <-.
  assert (mk_table r (pixcol pix ++ chans vs) = new_table \/ exists vs', mk_table r (pixcol pix ++ chans vs) = mk_table npix (pixcol pix ++ chans vs') /\ (forall v, In v vs' -> length v = npix)) as Ht.
  { destruct HR as [->|(-> & HP & ->)]; [right; exists vs; split; [reflexivity|exact HV]|left; now rewrite HP]. }
  destruct (replace_shape npix pix data2 n2 k2 _ L2 Hp Ht) as (r' & vs' & E' & HR' & HV' & V' & (W1 & W2)). exists (mk_table r' (pixcol pix ++ chans vs')). split; [exact E'|]. rewrite read_shape by apply nochan_pix.
  assert (length vs' = n2) as Lv.
  { destruct HR as [->|(-> & HP & ->)]; [destruct (W2 vs eq_refl) as (W3 & _); lia|]. apply W1. rewrite HP. reflexivity. }
  now rewrite (planes_list npix data2 n2 vs' L2 Lv V'), Lv.
Qed.

(** ** Images *)
Lemma wcs_whole npix data n kmin : length data = n * npix -> exists im, append_wcs zero npix n data kmin (kmin + n) = Ok im /\ read_image im = (data, n).
Proof.
  intros L. unfold append_wcs, replace_wcs. replace (kmin + n - kmin) with n by lia. rewrite Nat.eqb_refl. cbn [i_planes]. rewrite L, Nat.eqb_refl. eexists. split; reflexivity.
Qed.
Lemma wcs_part npix ndata data kmin n : (kmin + n) * npix <= length data -> n <> ndata -> exists im, append_wcs zero npix ndata data kmin (kmin + n) = Ok im /\ read_image im = (planes npix data kmin n, n).
Proof.
  intros L Hn. unfold append_wcs, replace_wcs. replace (kmin + n - kmin) with n by lia. apply Nat.eqb_neq in Hn. rewrite Hn. unfold slice. destruct (Nat.ltb_spec (length data) (kmin * npix + n * npix)) as [X|_]; [nia|]. cbn [obind]. eexists. split; reflexivity.
Qed.
Lemma wcs_short npix ndata data kmin n : n <> ndata -> length data < (kmin + n) * npix -> append_wcs zero npix ndata data kmin (kmin + n) = UB.
Proof.
  intros Hn L. unfold append_wcs, replace_wcs. replace (kmin + n - kmin) with n by lia. apply Nat.eqb_neq in Hn. rewrite Hn. unfold slice. destruct (Nat.ltb_spec (length data) (kmin * npix + n * npix)) as [X|X]; [reflexivity|nia].
Qed.

(** ** Sparse maps *)
Lemma sparse_rows_written npix nfail d : 0 < npix -> sparse_rows zero npix nfail (map (fun p : nat * T => Some (fst p mod npix, fst p / npix, snd p)) d) = Ok d.
Proof.
  intros Hn. induction d as [|(k & x) d IH]; [reflexivity|]. cbn [map sparse_rows fst snd]. rewrite IH. cbn [obind]. rewrite (Nat.mul_comm (k / npix)), <- Nat.div_mod by lia. reflexivity.
Qed.
Lemma sparse_round_trip npix ndata (v : sv T) kmin kmax w : 0 < npix -> (forall k x, In (k, x) (sv_data v) -> k < ndata * npix) ->
  exists t, append_sparse npix ndata v kmin kmax = Ok t /\ read_sparse zero t npix w = Ok (mk_sv (sv_size w) (sv_null w) (sv_data v), kmax - kmin).
Proof.
  intros Hn H. unfold append_sparse, replace_sparse. destruct (Nat.eqb_spec npix 0) as [X|_]; [lia|].
  replace (existsb (fun p => ndata <=? fst p / npix) (sv_data v)) with false.
  2:{ symmetry. apply not_true_iff_false. intros E. apply existsb_exists in E. destruct E as ((k & x) & I & E). cbn in E. apply Nat.leb_le in E. specialize (H k x I). pose proof (Nat.div_lt_upper_bound k npix ndata ltac:(lia) ltac:(lia)). lia. }
  eexists. split; [reflexivity|]. cbn [s_rows]. rewrite skipn_nil, app_nil_r. unfold read_sparse. cbn [s_rows s_nenergy]. rewrite sparse_rows_written by exact Hn. reflexivity.
Qed.
Lemma sparse_outside npix ndata (v : sv T) kmin kmax t k x : 0 < npix -> In (k, x) (sv_data v) -> ndata * npix <= k -> replace_sparse t npix ndata v kmin kmax = Throw.
Proof.
  intros Hn I Hk. unfold replace_sparse. destruct (Nat.eqb_spec npix 0) as [X|_]; [lia|]. replace (existsb (fun p => ndata <=? fst p / npix) (sv_data v)) with true; [reflexivity|]. symmetry. apply existsb_exists. exists (k, x). split; [exact I|]. cbn. apply Nat.leb_le. apply Nat.div_le_lower_bound; lia.
Qed.
Definition unreadable (rows : list (option (nat * nat * T))) : nat := length (filter (fun r => match r with None => true | _ => false end) rows).
Lemma sparse_unreadable npix rows : forall nfail, (nfail <= 10)%nat -> (sparse_rows zero npix nfail rows = Throw <-> 10 < nfail + unreadable rows) /\ sparse_rows zero npix nfail rows <> UB.
Proof.
  unfold unreadable. induction rows as [|[((p & c) & x)|] l IH]; intros nf Hf; cbn [sparse_rows filter length].
  - split; [split; [discriminate|lia]|discriminate].
  - destruct (IH nf Hf) as (I1 & I2). destruct (sparse_rows zero npix nf l); cbn [obind]; split; try congruence; try exact I1; split; intros Q; try discriminate; apply I1 in Q; discriminate.
  - destruct (Nat.ltb_spec nf 10) as [H|H].
    + destruct (IH (S nf) ltac:(lia)) as (I1 & I2). replace (nf + S (length (filter (fun r => match r with None => true | _ => false end) l))) with (S nf + length (filter (fun r : option (nat * nat * T) => match r with None => true | _ => false end) l)) by lia.
      destruct (sparse_rows zero npix (S nf) l); cbn [obind]; split; try congruence; try exact I1; split; intros Q; try discriminate; apply I1 in Q; discriminate.
    + split; [|discriminate]. split; [lia|reflexivity].
Qed.
End Dense.

(** ** Energies *)
Lemma ebounds_ok (es : list R) : 2 <= length es -> read_ebounds (bins_of es) = Ok (map (fun e => (e / 1000)%R) es).
Proof.
  intros L. unfold bins_of. destruct es as [|a [|b es]]; cbn in L; try lia. unfold read_ebounds. cbn [tl combine]. f_equal. clear L. change ((a, b) :: combine (b :: es) es) with (combine (a :: b :: es) (b :: es)).
  revert a b. induction es as [|c es IH]; intros a b; [reflexivity|].
  change (combine (a :: b :: c :: es) (b :: c :: es)) with ((a, b) :: combine (b :: c :: es) (c :: es)). change (map (fun e : R => (e / 1000)%R) (a :: b :: c :: es)) with ((a / 1000)%R :: map (fun e : R => (e / 1000)%R) (b :: c :: es)).
  rewrite <- (IH b c). cbn [map fst app]. f_equal.
Qed.

(** ** Matrices *)
Lemma write_drm_ok d full : length full = dr_ntrue d + 1 -> length (dr_mat d) = dr_ntrue d ->
  write_drm d full = Ok (map (fun i => (nth i full 0%R, nth (i + 1) full 0%R, nth i (dr_mat d) [])) (seq 0 (dr_ntrue d))).
Proof.
  intros L1 L2. unfold write_drm. rewrite (push_loop _ (fun i => (nth i full 0%R, nth (i + 1) full 0%R, nth i (dr_mat d) []))); [reflexivity|]. intros px k Hk. rewrite (vec_get_ok full k 0%R), (vec_get_ok full (k + 1) 0%R), (vec_get_ok (dr_mat d) k []) by lia. reflexivity.
Qed.
Lemma transpose_fits d : dr_ntrue d <= length (dr_mat d) -> (forall row, In row (dr_mat d) -> dr_nmeas d <= length row) -> exists t, compute_transpose d = Ok t.
Proof.
  intros L HR. unfold compute_transpose.
  set (P := fun t : list (list R) => length t = dr_nmeas d /\ forall c, In c t -> length c = dr_ntrue d).
  assert (P0 : P (repeat (repeat 0%R (dr_ntrue d)) (dr_nmeas d))). { split; [apply repeat_length|]. intros c Hc. apply repeat_spec in Hc. subst c. apply repeat_length. }
  match goal with |- exists t, mfold ?f ?l ?s0 = _ => assert (Hs : forall t k, In k l -> P t -> exists t', f t k = Ok t' /\ P t'); [|destruct (mfold_inv P f l Hs s0 P0) as (t & E & _); exists t; exact E] end.
  intros t k Hk Pt. apply in_seq in Hk. apply mfold_inv; [|exact Pt]. clear t Pt. intros t kp Hkp (P1 & P2). apply in_seq in Hkp. rewrite (vec_get_ok _ k []) by lia. cbn [obind].
  rewrite (vec_get_ok _ kp 0%R) by (specialize (HR (nth k (dr_mat d) []) ltac:(apply nth_In; lia)); lia). cbn [obind]. rewrite (vec_get_ok t kp []) by lia. cbn [obind].
  assert (length (nth kp t []) = dr_ntrue d) as Lc by (apply P2, nth_In; lia). rewrite vec_set_ok by lia. cbn [obind]. rewrite vec_set_ok by lia. eexists. split; [reflexivity|]. split; [now rewrite upd_length|].
  intros c Hc. apply In_nth with (d := []) in Hc. destruct Hc as (i & Hi & <-). rewrite upd_length in Hi. destruct (Nat.eq_dec i kp) as [->|Hne]; [rewrite nth_upd_eq by lia; now rewrite upd_length|rewrite nth_upd_neq by lia; apply P2, nth_In, Hi].
Qed.
Lemma drm_back d lo hi rows : dr_eb d = 1 -> 2 <= length (dr_en d) -> length (dr_mat d) = dr_ntrue d -> (forall row, In row (dr_mat d) -> length row = dr_nmeas d) ->
  write_drm d (lo :: dr_en d ++ [hi]) = Ok rows -> exists t, read_drm rows = Ok (mk_drm (dr_en d) 0 (dr_mat d), t).
Proof.
  intros He Ln Lm HR Hw. rewrite write_drm_ok in Hw by (try exact Lm; unfold dr_ntrue; cbn [length]; rewrite app_length, He; cbn; lia). injection Hw as <-.
  assert (N : dr_ntrue d = S (length (dr_en d))) by (unfold dr_ntrue; lia). rewrite N. cbn [seq map]. unfold read_drm.
  match goal with |- context [mk_drm ?a 0 ?b] => replace a with (dr_en d); [replace b with (dr_mat d)|] end.
  - cbn [dr_en]. destruct (Nat.ltb_spec (length (dr_en d)) 2) as [X|_]; [lia|]. destruct (transpose_fits (mk_drm (dr_en d) 0 (dr_mat d))) as (t & E).
    + unfold dr_ntrue. cbn. rewrite Lm. lia.
    + intros row Hr. specialize (HR row Hr). unfold dr_nmeas in *. cbn in *. lia.
    + rewrite E. cbn [obind]. eexists. reflexivity.
  - change (dr_mat d = map snd (map (fun i => (nth i (lo :: dr_en d ++ [hi]) 0%R, nth (i + 1) (lo :: dr_en d ++ [hi]) 0%R, nth i (dr_mat d) [])) (seq 0 (S (length (dr_en d)))))). rewrite map_map. cbn [snd]. rewrite <- N, <- Lm. apply (list_ext_nth _ _ []).
    + now rewrite map_length, seq_length.
    + intros i Hi. rewrite (nth_indep (map _ _) [] (nth 0 (dr_mat d) [])) by now rewrite map_length, seq_length. rewrite (map_nth (fun k => nth k (dr_mat d) [])). now rewrite seq_nth.
  - rewrite map_map. cbn [fst]. rewrite <- seq_shift, map_map. cbn [nth]. apply (list_ext_nth _ _ 0%R).
    + now rewrite map_length, seq_length.
    + intros i Hi. rewrite (nth_indep (map _ _) 0%R (nth 0 (dr_en d ++ [hi]) 0%R)) by now rewrite map_length, seq_length. rewrite (map_nth (fun k => nth k (dr_en d ++ [hi]) 0%R)). rewrite seq_nth by exact Hi. cbn. now rewrite app_nth1 by lia.
Qed.

(** ** Parameters *)
Lemma substring_all s n : String.length s <= n -> substring 0 n s = s.
Proof. revert n; induction s as [|a s IH]; intros [|n] H; cbn in *; auto; try lia. now rewrite IH by lia. Qed.
Lemma params_written m r : names_fit m -> (In r (write_params m) <-> exists s f ps n p, In (s, (f, ps)) m /\ In (n, p) ps /\ r = row_of s f n p).
Proof.
  intros F. unfold write_params. rewrite in_concat. split.
  - intros (l & Hl & Hr). apply in_map_iff in Hl. destruct Hl as ((s & f & ps) & <- & Hs). cbn [fst snd] in Hr. apply in_map_iff in Hr. destruct Hr as ((n & p) & <- & Hp). cbn [fst snd].
    destruct (F s f ps Hs) as (F1 & F2 & F3). exists s, f, ps, n, p. split; [exact Hs|]. split; [exact Hp|]. unfold fit32, row_of. now rewrite !substring_all by first [exact F1|exact F2|exact (F3 n p Hp)].
  - intros (s & f & ps & n & p & Hs & Hp & ->). destruct (F s f ps Hs) as (F1 & F2 & F3). eexists. split; [apply in_map_iff; exists (s, (f, ps)); split; [reflexivity|exact Hs]|]. cbn [fst snd]. apply in_map_iff. exists (n, p). split; [|exact Hp]. unfold fit32, row_of. cbn [fst snd]. now rewrite !substring_all by first [exact F1|exact F2|exact (F3 n p Hp)].
Qed.
Lemma read_row_throws m r : r_func r <> "Spectrum" -> read_row m r = Throw.
Proof.
  intros H. unfold read_row, getParam. apply String.eqb_neq in H. destruct (assoc m (r_par r)) as [(f & ps)|]; [|reflexivity]. now rewrite H.
Qed.
Lemma params_throw m : names_fit m -> (forall s f ps, In (s, (f, ps)) m -> f <> "Spectrum") -> (exists s f n p ps, In (s, (f, ps)) m /\ In (n, p) ps) -> read_params (write_params m) m = Throw.
Proof.
  intros F H (s & f & n & p & ps & Hs & Hp). assert (In (row_of s f n p) (write_params m)) as I by (apply params_written; [exact F|]; exists s, f, ps, n, p; auto).
  pose proof (fun r => proj1 (params_written m r F)) as K. unfold read_params. destruct (write_params m) as [|r l]; [contradiction|]. cbn [mfold]. rewrite read_row_throws; [reflexivity|]. destruct (K r (or_introl eq_refl)) as (s' & f' & ps' & n' & p' & Hs' & _ & ->). exact (H _ _ _ Hs').
Qed.

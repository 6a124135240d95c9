From Coq Require Import Reals Lra Sorted.
From Verif Require Import Base AccumModel AccumProofs SparseModel SmapModel SmapSpec CountsProofs SmapProofs SmapNpred SmapFixed SmapLike DrmModel DrmSpec.
Local Open Scope outcome_scope.

(** Convolution. *)
Section D.
Variable d : drm.
Lemma extend_once_ok counts n ext : 2 <= length counts -> extended d counts n ext ->
  exists ext', extend_once d ext = Ok ext' /\ extended d counts (S n) ext'.
Proof.
  intros H2 (HL & Hm & Hlo & Hhi). unfold extend_once. rewrite !(vec_get_ok ext _ 0%R) by lia. cbn [obind]. cbv zeta.
  set (x := extrapolate_lo d (nth 0 ext 0%R) (nth 1 ext 0%R)). cbn [length]. replace (S (length ext) - 1) with (length ext) by lia.
  rewrite !(vec_get_ok (x :: ext) _ 0%R) by (simpl; lia). cbn [obind].
  set (y := extrapolate_hi d (nth (length ext - 1) (x :: ext) 0%R) (nth (length ext) (x :: ext) 0%R)).
  exists ((x :: ext) ++ [y]). split; auto.
  assert (forall i, i < length ext -> nth (S i) ((x :: ext) ++ [y]) 0%R = nth i ext 0%R) as Hin.
  { intros i Hi. rewrite app_nth1 by (simpl; lia). reflexivity. }
  split; [rewrite app_length; simpl; lia|]. split; [|split].
  - intros i Hi. rewrite Nat.add_succ_l. rewrite Hin by lia. apply Hm; auto.
  - intros [|i] Hi.
    + rewrite (Hin 0), (Hin 1) by lia. reflexivity.
    + rewrite !Hin by lia. apply Hlo. lia.
  - intros i Hi. cbv zeta. destruct (Nat.eq_dec i n) as [->|Hne].
    + replace (S n + length counts + n) with (S (length ext)) by lia. 
      assert (nth (S (length ext)) ((x :: ext) ++ [y]) 0%R = y) as -> by (rewrite app_nth2 by (simpl; lia); simpl; now rewrite Nat.sub_diag).
      unfold y. replace (S (length ext) - 2) with (length ext - 1) by lia. replace (S (length ext) - 1) with (length ext) by lia.
      rewrite !app_nth1 by (simpl; lia). reflexivity.
    + specialize (Hhi i ltac:(lia)). cbv zeta in Hhi. replace (S n + length counts + i) with (S (n + length counts + i)) by lia. set (j := n + length counts + i) in *.
      rewrite Hin by lia. replace (S j - 2) with (S (j - 2)) by lia. replace (S j - 1) with (S (j - 1)) by lia. rewrite !Hin by lia. exact Hhi.
Qed.
Lemma extended_0 counts : extended d counts 0 counts.
Proof. split; [lia|]. split; [intros; f_equal|]. split; intros; lia. Qed.
Lemma extend_ok counts : 2 <= length counts \/ dr_eb d = 0 -> exists ext, extend d counts = Ok ext /\ extended d counts (dr_eb d) ext.
Proof.
  intros [H|H]; [|exists counts; unfold extend; rewrite H; split; [reflexivity|apply extended_0]].
  unfold extend. assert (forall n a k ext, extended d counts k ext -> exists ext', mfold (fun counts _ => extend_once d counts) (seq a n) ext = Ok ext' /\ extended d counts (k + n) ext') as Hg.
  { induction n as [|n IH]; intros a k ext He; cbn [seq mfold].
    - exists ext. split; auto. now rewrite Nat.add_0_r.
    - destruct (extend_once_ok counts k ext H He) as (e1 & -> & He1). cbn [obind]. destruct (IH (S a) (S k) e1 He1) as (e2 & E2 & He2). exists e2. split; auto. now replace (k + S n) with (S k + n) by lia. }
  destruct (Hg (dr_eb d) 0 0 counts (extended_0 counts)) as (e & E & He). exists e. split; auto.
Qed.
(** The two neighbours determine each added bin. *)
Lemma extended_unique counts n e1 e2 : extended d counts n e1 -> extended d counts n e2 -> 2 <= length counts \/ n = 0 -> e1 = e2.
Proof.
  intros (L1 & M1 & A1 & B1) (L2 & M2 & A2 & B2) H2. apply list_ext_nth with (d := 0%R); [congruence|].
  assert (forall q i, i < n -> n - i <= q -> nth i e1 0%R = nth i e2 0%R) as Hlo.
  { assert (forall i, n <= i < n + length counts -> nth i e1 0%R = nth i e2 0%R) as Hm by (intros i Hi; replace i with (n + (i - n)) by lia; rewrite M1, M2 by lia; auto).
    induction q as [|q IH]; intros i Hi Hq; [lia|]. rewrite A1, A2 by auto. f_equal.
    - destruct (Nat.eq_dec (S i) n); [apply Hm; lia|apply IH; lia].
    - destruct (Nat.lt_ge_cases (S (S i)) n); [apply IH; lia|apply Hm; lia]. }
  assert (forall i, i < n + length counts -> nth i e1 0%R = nth i e2 0%R) as Hmid.
  { intros i Hi. destruct (Nat.lt_ge_cases i n); [apply (Hlo n); lia|]. replace i with (n + (i - n)) by lia. rewrite M1, M2 by lia. auto. }
  assert (forall q i, i < q -> i < n -> nth (n + length counts + i) e1 0%R = nth (n + length counts + i) e2 0%R) as Hhi.
  { induction q as [|q IH]; intros i Hq Hi; [lia|]. rewrite (B1 i Hi), (B2 i Hi). cbv zeta. f_equal.
    - destruct (Nat.lt_ge_cases (n + length counts + i - 2) (n + length counts)); [apply Hmid; auto|]. replace (n + length counts + i - 2) with (n + length counts + (i - 2)) by lia. apply IH; lia.
    - destruct (Nat.lt_ge_cases (n + length counts + i - 1) (n + length counts)); [apply Hmid; auto|]. replace (n + length counts + i - 1) with (n + length counts + (i - 1)) by lia. apply IH; lia. }
  intros i Hi. destruct (Nat.lt_ge_cases i (n + length counts)); [apply Hmid; auto|]. replace i with (n + length counts + (i - (n + length counts))) by lia. apply (Hhi (S n)); lia.
Qed.

Hypothesis DK : drm_ok d.
Lemma nmeas_ntrue : dr_ntrue d = dr_nmeas d + 2 * dr_eb d.
Proof. destruct DK. unfold dr_ntrue, dr_nmeas. lia. Qed.
Lemma row_get k kp : k < dr_ntrue d -> kp < dr_nmeas d ->
  vec_get (dr_mat d) k = Ok (nth k (dr_mat d) []) /\ vec_get (nth k (dr_mat d) []) kp = Ok (entry d k kp).
Proof.
  intros Hk Hp. destruct DK as [_ Hr Hc]. split; [apply vec_get_ok; lia|]. apply vec_get_ok. rewrite Forall_forall in Hc. rewrite Hc; auto. apply nth_In. lia.
Qed.
Lemma mfold_snoc_map {A B} (f : A -> outcome B) (g : A -> B) : forall l acc, (forall a, In a l -> f a = Ok (g a)) ->
  mfold (fun m a => x <- f a ;; Ok (m ++ [x])) l acc = Ok (acc ++ map g l).
Proof.
  induction l as [|a l IH]; intros acc H; cbn [mfold map]; [now rewrite app_nil_r|]. rewrite H by (now left). cbn [obind]. rewrite IH by (intros; apply H; now right). now rewrite <- app_assoc.
Qed.
Lemma convolve_ok tc : length tc = dr_nmeas d -> 2 <= dr_nmeas d \/ dr_eb d = 0 ->
  exists ext, extended d tc (dr_eb d) ext /\ convolve d tc = Ok (map (folded d ext) (seq 0 (dr_nmeas d))).
Proof.
  intros HL H2. destruct (extend_ok tc) as (ext & E & He); [lia|]. exists ext. split; auto. unfold convolve. rewrite HL, Nat.eqb_refl. cbn [negb]. rewrite E. cbn [obind].
  destruct He as (Le & _). apply (mfold_snoc_map _ (folded d ext)). intros kp Hkp. apply in_seq in Hkp. unfold folded.
  assert (forall n k acc, k + n = dr_ntrue d -> mfold (fun acc k => c <- vec_get ext k ;; row <- vec_get (dr_mat d) k ;; r <- vec_get row kp ;; Ok (acc + c * r)%R) (seq k n) acc =
    Ok (acc + Rsum (map (fun k => nth k ext 0 * entry d k kp) (seq k n)))%R) as H.
  { induction n as [|n IH]; intros k acc Hk; cbn [seq mfold map]; [unfold Rsum; simpl; f_equal; ring|].
    destruct (row_get k kp ltac:(lia) ltac:(lia)) as [E1 E2]. rewrite (vec_get_ok ext k 0%R) by (rewrite Le, HL; pose proof nmeas_ntrue; lia). cbn [obind]. rewrite E1. cbn [obind]. rewrite E2. cbn [obind].
    rewrite IH by lia. unfold Rsum. cbn [fold_right]. f_equal. ring. }
  rewrite H by lia. f_equal. ring.
Qed.
Definition tables (nt nm : nat) (t : list (list R)) : Prop := length t = nm /\ Forall (fun c => length c = nt) t.
Lemma transpose_ok : exists t, compute_transpose d = Ok t /\ tables (dr_ntrue d) (dr_nmeas d) t /\
  forall k kp, k < dr_ntrue d -> kp < dr_nmeas d -> nth k (nth kp t []) 0%R = entry d k kp.
Proof.
  unfold compute_transpose.
  set (body := fun (k : nat) (t : list (list R)) (kp : nat) => row <- vec_get (dr_mat d) k ;; x <- vec_get row kp ;; col <- vec_get t kp ;; col' <- vec_set col k x ;; vec_set t kp col').
  assert (forall k, k < dr_ntrue d -> forall n a t, a + n = dr_nmeas d -> tables (dr_ntrue d) (dr_nmeas d) t ->
    exists t', mfold (body k) (seq a n) t = Ok t' /\ tables (dr_ntrue d) (dr_nmeas d) t' /\
    forall i j, i < dr_nmeas d -> nth j (nth i t' []) 0%R = if (a <=? i) && (j =? k) then entry d k i else nth j (nth i t []) 0%R) as H1.
  { intros k Hk. induction n as [|n IH]; intros a t Ha [T1 T2]; cbn [seq mfold].
    - exists t. split; auto. split; [split; auto|]. intros i j Hi. destruct (Nat.leb_spec a i); auto; lia.
    - destruct (row_get k a Hk ltac:(lia)) as [E1 E2]. unfold body at 1. rewrite E1. cbn [obind]. rewrite E2. cbn [obind]. rewrite (vec_get_ok t a []) by lia. cbn [obind].
      assert (length (nth a t []) = dr_ntrue d) as La by (rewrite Forall_forall in T2; apply T2, nth_In; lia).
      rewrite vec_set_ok by lia. cbn [obind]. rewrite vec_set_ok by lia. cbn [obind].
      destruct (IH (S a) (upd t a (upd (nth a t []) k (entry d k a)))) as (t' & E & T' & H); [lia| |].
      { split; [now rewrite upd_length|]. apply Forall_forall. intros c Hc. apply (In_nth _ _ []) in Hc as (q & Hq & <-). rewrite upd_length in Hq.
        destruct (Nat.eq_dec q a) as [->|]; [rewrite nth_upd_eq by lia; now rewrite upd_length|rewrite nth_upd_neq by auto; rewrite Forall_forall in T2; apply T2, nth_In; lia]. }
      exists t'. split; auto. split; auto. intros i j Hi. rewrite H by auto. destruct (Nat.eq_dec i a) as [->|Hne].
      + destruct (Nat.leb_spec (S a) a); [lia|]. destruct (Nat.leb_spec a a); [|lia]. cbn [andb]. rewrite nth_upd_eq by lia. destruct (Nat.eqb_spec j k) as [->|]; [rewrite nth_upd_eq by lia; auto|rewrite nth_upd_neq by auto; auto].
      + rewrite nth_upd_neq by auto. destruct (Nat.leb_spec (S a) i), (Nat.leb_spec a i); auto; lia. }
  assert (forall n a t, a + n = dr_ntrue d -> tables (dr_ntrue d) (dr_nmeas d) t ->
    exists t', mfold (fun t k => mfold (body k) (seq 0 (dr_nmeas d)) t) (seq a n) t = Ok t' /\ tables (dr_ntrue d) (dr_nmeas d) t' /\
    forall i j, i < dr_nmeas d -> j < dr_ntrue d -> nth j (nth i t' []) 0%R = if a <=? j then entry d j i else nth j (nth i t []) 0%R) as H2.
  { induction n as [|n IH]; intros a t Ha T; cbn [seq mfold].
    - exists t. split; auto. split; auto. intros i j Hi Hj. destruct (Nat.leb_spec a j); auto; lia.
    - destruct (H1 a ltac:(lia) (dr_nmeas d) 0 t eq_refl T) as (t1 & E1 & T1 & S1). rewrite E1. cbn [obind].
      destruct (IH (S a) t1 ltac:(lia) T1) as (t2 & E2 & T2 & S2). exists t2. split; auto. split; auto. intros i j Hi Hj. rewrite S2, S1 by auto. change (0 <=? i) with true. cbn [andb].
      destruct (Nat.leb_spec (S a) j), (Nat.leb_spec a j), (Nat.eqb_spec j a); subst; auto; lia. }
  destruct (H2 (dr_ntrue d) 0 (repeat (repeat 0%R (dr_ntrue d)) (dr_nmeas d)) eq_refl) as (t & E & T & S).
  { split; [apply repeat_length|]. apply Forall_forall. intros c Hc. apply repeat_spec in Hc. subst. apply repeat_length. }
  exists t. split; auto. split; auto. intros k kp Hk Hkp. rewrite S by auto. reflexivity.
Qed.
End D.

(** The corrections. *)
Fixpoint refof (tc : list R) (k : nat) : option nat :=
  if Rltb 0 (nth k tc 0%R) then Some k else match k with 0 => None | S k' => refof tc k' end.
Lemma refof_some tc k r : refof tc k = Some r <-> reference tc k r.
Proof.
  unfold reference. revert r; induction k as [|k IH]; intros r; simpl refof; destruct (Rltb_spec 0 (nth 0 tc 0%R)) as [H0|H0].
  - split; [intros [= <-]; split; [lia|split; [auto|intros; lia]]|intros (A & B & C); f_equal; lia].
  - split; [discriminate|]. intros (A & B & C). assert (r = 0) as -> by lia. lra.
  - destruct (Rltb_spec 0 (nth (S k) tc 0%R)) as [H|H].
    + split; [intros [= <-]; split; [lia|split; [auto|intros; lia]]|]. intros (A & B & C). f_equal. destruct (Nat.eq_dec r (S k)); auto. specialize (C (S k) ltac:(lia)). lra.
    + rewrite IH. split; intros (A & B & C).
      * split; [lia|]. split; auto. intros j Hj. destruct (Nat.eq_dec j (S k)) as [->|]; [lra|apply C; lia].
      * assert (r <> S k) by (intros ->; lra). split; [lia|]. split; auto. intros j Hj. apply C; lia.
  - destruct (Rltb_spec 0 (nth (S k) tc 0%R)) as [H|H].
    + split; [intros [= <-]; split; [lia|split; [auto|intros; lia]]|]. intros (A & B & C). f_equal. destruct (Nat.eq_dec r (S k)); auto. specialize (C (S k) ltac:(lia)). lra.
    + rewrite IH. split; intros (A & B & C).
      * split; [lia|]. split; auto. intros j Hj. destruct (Nat.eq_dec j (S k)) as [->|]; [lra|apply C; lia].
      * assert (r <> S k) by (intros ->; lra). split; [lia|]. split; auto. intros j Hj. apply C; lia.
Qed.
Lemma refof_none tc k : refof tc k = None <-> forall j, j <= k -> (nth j tc 0 <= 0)%R.
Proof.
  induction k as [|k IH]; simpl refof.
  - destruct (Rltb_spec 0 (nth 0 tc 0%R)); split; try discriminate; auto.
    + intros H. specialize (H 0 ltac:(lia)). lra.
    + intros _ j Hj. assert (j = 0) as -> by lia. lra.
  - destruct (Rltb_spec 0 (nth (S k) tc 0%R)); split; try discriminate.
    + intros H. specialize (H (S k) ltac:(lia)). lra.
    + intros H j Hj. destruct (Nat.eq_dec j (S k)) as [->|]; [lra|]. apply IH; auto. lia.
    + intros H. apply IH. intros; apply H; lia.
Qed.
Definition prevref (tc : list R) (k : nat) : option nat := match k with 0 => None | S k' => refof tc k' end.
Lemma refof_eq tc k : refof tc k = if Rltb 0 (nth k tc 0%R) then Some k else prevref tc k.
Proof. destruct k; reflexivity. Qed.
Definition Zref (o : option nat) : Z := match o with Some r => Z.of_nat r | None => (-1)%Z end.
Definition xi_of (tc mc : list R) (k : nat) : R := match refof tc k with Some r => (nth k mc 0 / nth r tc 0)%R | None => 1%R end.
Definition kref_of (tc : list R) (k : nat) : Z := if Rltb 0 (nth k tc 0%R) then (-1)%Z else Zref (refof tc k).
Definition mw_of (ev : Z) (tc mc tw mw : list R) (k : nat) : R :=
  if (ev <? 0)%Z then (xi_of tc mc k * match refof tc k with Some r => nth r tw 0 | None => 0 end)%R else nth k mw 0%R.
Lemma refof_le tc k r : refof tc k = Some r -> r <= k.
Proof. intros H. apply refof_some in H. apply H. Qed.
Lemma corrections_ok ev tc mc tw mw : length mc = length tc -> length tw = length tc -> length mw = length tc ->
  ((ev < 0)%Z -> tc <> [] -> (0 < nth 0 tc 0)%R) ->
  corrections ev tc mc tw mw = Ok (map (xi_of tc mc) (seq 0 (length tc)), map (kref_of tc) (seq 0 (length tc)), map (mw_of ev tc mc tw mw) (seq 0 (length tc))).
Proof.
  intros L1 L2 L3 Hpos. unfold corrections.
  assert (forall n k xi kr mw', k + n = length tc -> exists kz, mfold (fun (st : Z * (list R * list Z * list R)) k =>
    let '(kref, (xi, kr, mw')) := st in
    t <- vec_get tc k ;; m <- vec_get mc k ;;
    c <- (if Rltb 0 t then Ok (Z.of_nat k, ((m / t)%R, (-1)%Z))
          else if (0 <=? kref)%Z then tr <- getZ tc kref ;; Ok (kref, ((m / tr)%R, kref)) else Ok (kref, (1%R, (-1)%Z))) ;;
    let '(kref, (x, q)) := (c : Z * (R * Z)) in
    w <- (if (ev <? 0)%Z then tr <- getZ tw kref ;; Ok (x * tr)%R else vec_get mw k) ;;
    Ok (kref, (xi ++ [x], kr ++ [q], mw' ++ [w]))) (seq k n) (Zref (prevref tc k), (xi, kr, mw')) =
    Ok (kz, (xi ++ map (xi_of tc mc) (seq k n), kr ++ map (kref_of tc) (seq k n), mw' ++ map (mw_of ev tc mc tw mw) (seq k n)))) as H.
  { induction n as [|n IH]; intros k xi kr mw' Hk; cbn [seq mfold map]; [rewrite !app_nil_r; eexists; reflexivity|].
    rewrite (vec_get_ok tc k 0%R) by lia. cbn [obind]. rewrite (vec_get_ok mc k 0%R) by lia. cbn [obind].
    assert ((if Rltb 0 (nth k tc 0%R) then Ok (Z.of_nat k, ((nth k mc 0 / nth k tc 0)%R, (-1)%Z))
          else if (0 <=? Zref (prevref tc k))%Z then tr <- getZ tc (Zref (prevref tc k)) ;; Ok (Zref (prevref tc k), ((nth k mc 0 / tr)%R, Zref (prevref tc k))) else Ok (Zref (prevref tc k), (1%R, (-1)%Z))) =
          Ok (Zref (refof tc k), (xi_of tc mc k, kref_of tc k))) as ->.
    { unfold xi_of, kref_of. rewrite refof_eq. destruct (Rltb_spec 0 (nth k tc 0%R)); [reflexivity|].
      destruct (prevref tc k) as [r|] eqn:Ep; [|reflexivity]. unfold Zref. destruct (Z.leb_spec 0 (Z.of_nat r)); [|lia].
      assert (r < length tc) by (destruct k; [discriminate|]; apply refof_le in Ep; lia). rewrite (getZ_ok tc r 0%R) by auto. reflexivity. }
    cbn [obind].
    assert ((if (ev <? 0)%Z then tr <- getZ tw (Zref (refof tc k)) ;; Ok (xi_of tc mc k * tr)%R else vec_get mw k) = Ok (mw_of ev tc mc tw mw k)) as ->.
    { unfold mw_of. destruct (Z.ltb_spec ev 0) as [He|He]; [|apply vec_get_ok; lia].
      destruct (refof tc k) as [r|] eqn:Er; [|exfalso].
      - pose proof (refof_le _ _ _ Er). unfold Zref. rewrite (getZ_ok tw r 0%R) by lia. reflexivity.
      - pose proof (proj1 (refof_none tc k) Er 0 ltac:(lia)). specialize (Hpos He ltac:(intros ->; simpl in Hk; lia)). lra. }
    cbn [obind]. destruct (IH (S k) (xi ++ [xi_of tc mc k]) (kr ++ [kref_of tc k]) (mw' ++ [mw_of ev tc mc tw mw k]) ltac:(lia)) as (kz & E).
    exists kz. cbn [prevref] in E. etransitivity; [exact E|]. rewrite <- !app_assoc. reflexivity. }
  destruct (H (length tc) 0 [] [] [] eq_refl) as (kz & E). cbn [prevref] in E. unfold Zref in E at 1. etransitivity; [apply (f_equal (fun o => obind o _)); exact E|]. reflexivity.
Qed.

Lemma clamp_ok s first nt meas : sm_ne s - 1 <= nt \/ first = false \/ Forall (fun x => (0 <= x)%R) meas -> exists b, clamp s first nt meas = Ok (map (Rmax 0) meas, b) /\ (first = false -> b = false).
Proof.
  unfold clamp. intros H. assert (forall l acc fi, sm_ne s - 1 <= nt \/ fi = false \/ Forall (fun x => (0 <= x)%R) l -> exists b, mfold (fun (st : list R * bool) x => let (l, first) := st in
    if Rltb x 0 then (if first && (nt <? sm_ne s - 1) then UB else Ok (l ++ [0%R], false)) else Ok (l ++ [x], first)) l (acc, fi) = Ok (acc ++ map (Rmax 0) l, b) /\ (fi = false -> b = false)) as Hg.
  { induction l as [|x l IH]; intros acc fi Hf; cbn [mfold map]; [exists fi; rewrite app_nil_r; auto|].
    destruct (Rltb_spec x 0) as [Hx|Hx].
    - assert (fi && (nt <? sm_ne s - 1) = false) as ->.
      { destruct Hf as [Hf|[->|Hf]]; auto; [destruct (Nat.ltb_spec nt (sm_ne s - 1)); [lia|apply andb_false_r]|]. inversion Hf; subst; lra. }
      cbn [obind]. destruct (IH (acc ++ [0%R]) false) as (b & E & Hb); [auto|]. exists b. split; [|auto]. rewrite E, <- app_assoc. cbn [app]. now rewrite Rmax_left by lra.
    - cbn [obind]. destruct (IH (acc ++ [x]) fi) as (b & E & Hb).
      { destruct Hf as [Hf|[Hf|Hf]]; auto. right; right. now inversion Hf. }
      exists b. split; [|auto]. rewrite E, <- app_assoc. cbn [app]. now rewrite Rmax_right by lra. }
  apply (Hg meas [] first H).
Qed.

(** The whole update. *)
Section U.
Variables (d : drm) (s : smap) (OK : sm_ok s) (HN : dr_nmeas d = sm_nb s).
Notation np := (sm_np s). Notation nb := (sm_nb s). Notation eb := (sm_eb s). Notation NT := (sm_nb s + 2 * sm_eb s).
Variables (npreds : list R) (wn : list (list (R * R))) (EA : npred_arrays s = Ok (npreds, wn)) (HA : arrays_ok s npreds wn).
Lemma HS : length (sm_spec s) = NT + 1.
Proof. rewrite (so_spec s OK), (so_en s OK). lia. Qed.
Definition tw_of (k : nat) : R := disp s (sm_spec s) [1%R] (k + eb) 1 (fun i => nth i [nth 0 (nth k wn []) (0%R, 0%R)] (0%R, 0%R)).
Definition mw0 (k : nat) : R := if (0 <? sm_ev s)%Z then weighted s (sm_spec s) wn k (column s k) else tw_of k.
Definition m0 (k : nat) : R := if (0 <? sm_ev s)%Z then over_pixels s (counts_at s (sm_spec s) k) else true_counts s k.
Lemma true_disp k : k < nb -> disp s (sm_spec s) [1%R] (k + eb) 1 (totals s (k + eb)) = true_counts s k.
Proof.
  intros Hk. rewrite (totals_pixels s OK (sm_spec s) HS) by lia. unfold true_counts, over_pixels. apply Rsum_ext. intros p _. unfold Rsum. cbn [seq map fold_right nth]. rewrite Nat.add_0_r. ring.
Qed.
Lemma cache_counts_ok : cache_counts d s npreds wn (wts_of (sm_spec s) (sm_en s) (sm_ler s)) = Ok (map (fun k => ((true_counts s k, tw_of k), (m0 k, mw0 k))) (seq 0 nb)).
Proof.
  unfold cache_counts. rewrite HN. 
  set (W := wts_of (sm_spec s) (sm_en s) (sm_ler s)).
  transitivity (mfold (fun l k => x <- Ok ((true_counts s k, tw_of k), (m0 k, mw0 k)) ;; Ok (l ++ [x])) (seq 0 nb) (@nil (R * R * (R * R)))).
  - apply mfold_ext_in. intros l k Hk. apply in_seq in Hk. destruct HA as (A1 & A2 & A3 & A4). unfold vec_at at 1. rewrite (nth_error_nth' wn []) by lia. cbn [obind].
    assert (0 < length (nth k wn [])) as Hw by (rewrite A4 by lia; unfold width; destruct (0 <? sm_ev s)%Z; lia).
    unfold vec_at at 1. rewrite (nth_error_nth' (nth k wn []) (0%R, 0%R)) by lia. cbn [obind].
    replace (Z.of_nat k + Z.of_nat eb)%Z with (Z.of_nat (k + eb)) by lia. unfold W. rewrite (npred_contribution_ok s OK (sm_spec s) HS npreds wn (conj A1 (conj A2 (conj A3 A4)))) by lia. cbn [obind].
    rewrite true_disp by lia. fold (tw_of k). unfold m0, mw0. destruct (Z.ltb_spec 0 (sm_ev s)) as [He|He]; [|reflexivity].
    destruct (win s OK k ltac:(lia)) as (col & Ec & Rc & B & Lc). rewrite Ec. cbn [obind].
    pose proof (npreds_of_bin s OK (sm_spec s) HS npreds wn (conj A1 (conj A2 (conj A3 A4))) k col ltac:(lia) ltac:(lia) B) as H.
    destruct (Z.ltb_spec 0 (sm_ev s)); [|lia]. rewrite Lc, H. cbn [obind]. rewrite (column_ok s k col Rc). f_equal. f_equal. f_equal. f_equal. f_equal.
    apply (unweighted_ok s (sm_spec s) k col Ec Rc). auto.
  - rewrite (mfold_snoc_map _ (fun k => ((true_counts s k, tw_of k), (m0 k, mw0 k)))) by reflexivity. reflexivity.
Qed.
Definition tcs : list R := map (true_counts s) (seq 0 nb).
Definition tws : list R := map tw_of (seq 0 nb).
Definition raw_meas (mc : list R) : Prop := if (sm_ev s <? 0)%Z then convolve d tcs = Ok mc else mc = map m0 (seq 0 nb).
Lemma update_ok first mc : raw_meas mc -> length mc = nb ->
  eb = 0 \/ first = false \/ Forall (fun x => (0 <= x)%R) mc -> ((sm_ev s < 0)%Z -> 0 < nb -> (0 < true_counts s 0)%R) ->
  exists b, (first = false -> b = false) /\ drm_update d s first = Ok (mk_dcach tcs (map (Rmax 0) mc) (map (xi_of tcs (map (Rmax 0) mc)) (seq 0 nb)) (map (kref_of tcs) (seq 0 nb)) tws
    (map (mw_of (sm_ev s) tcs (map (Rmax 0) mc) tws (map mw0 (seq 0 nb))) (seq 0 nb)), b).
Proof.
  intros HR HL HF HP. unfold drm_update. rewrite EA. cbn [obind]. rewrite (wts_ok s OK) by exact HS. cbn [obind]. rewrite cache_counts_ok. cbn [obind]. cbv zeta. rewrite !map_map. cbn [fst snd].
  fold tcs. fold tws. change (map (fun k => mw0 k) (seq 0 nb)) with (map mw0 (seq 0 nb)). change (map (fun x => tw_of x) (seq 0 nb)) with tws. change (map (fun x => true_counts s x) (seq 0 nb)) with tcs. change (map (fun x => m0 x) (seq 0 nb)) with (map m0 (seq 0 nb)).
  assert ((if (sm_ev s <? 0)%Z then convolve d tcs else Ok (map m0 (seq 0 nb))) = Ok mc) as -> by (unfold raw_meas in HR; destruct (sm_ev s <? 0)%Z; auto; now subst).
  cbn [obind]. assert (length tcs = nb) as Lt by (unfold tcs; now rewrite map_length, seq_length). rewrite Lt.
  destruct (clamp_ok s first nb mc) as (b & E & Hb); [unfold sm_ne; rewrite (so_en s OK); destruct HF as [HF|HF]; [left; lia|auto]|]. rewrite E. cbn [obind].
  rewrite corrections_ok.
  - cbn [obind]. rewrite Lt. exists b. auto.
  - rewrite map_length. lia.
  - unfold tws. now rewrite map_length, seq_length.
  - now rewrite map_length, seq_length.
  - intros He Hne. assert (0 < nb) by (destruct nb; [destruct tcs; [congruence|discriminate]|lia]). unfold tcs. rewrite nth_map_seq' by auto. auto.
Qed.
Lemma nth_tcs k : k < nb -> nth k tcs 0%R = true_counts s k.
Proof. intros H. unfold tcs. now rewrite nth_map_seq'. Qed.
End U.

From Coq Require Import Reals Lra Permutation.
From Verif Require Import Base AccumModel AccumProofs VecModel VecSpec VecProofs PoissonModel PoissonSpec.
Local Open Scope R_scope.

(** ** The log-likelihood *)

Lemma eps_data_pos : 0 < eps_data.
Proof. unfold eps_data. apply Rinv_0_lt_compat, pow_lt; lra. Qed.
Lemma eps_zero_data : eps_zero < eps_data.
Proof. unfold eps_zero, eps_data. apply Rinv_lt_contravar; [|apply Rlt_pow; [lra|lia]].
  apply Rmult_lt_0_compat; apply pow_lt; lra. Qed.
Lemma eps_zero_pos : 0 < eps_zero.
Proof. unfold eps_zero. apply Rinv_0_lt_compat, pow_lt; lra. Qed.

Definition bad (data model : list R) : Prop :=
  exists i d m, nth_error data i = Some d /\ nth_error model i = Some m /\ impossible d m.
Lemma bad_cons d m ds ms : bad (d :: ds) (m :: ms) <-> impossible d m \/ bad ds ms.
Proof.
  split.
  - intros ([|i] & d' & m' & H1 & H2 & H3); simpl in *.
    + injection H1 as ->; injection H2 as ->; auto.
    + right. exists i, d', m'; auto.
  - intros [H|(i & d' & m' & H1 & H2 & H3)].
    + exists 0%nat, d, m; auto.
    + exists (S i), d', m'; auto.
Qed.
Lemma bad_nil ms : ~ bad [] ms.
Proof. intros ([|i] & d & m & H & _); discriminate. Qed.

Lemma pois_loop_spec : forall data model n l, length data = length model ->
  (bad data model /\ pois_loop data model n l = Throw) \/
  (~ bad data model /\ exists v, poisson data model v /\ pois_loop data model n l = Ok (l - n + v)).
Proof.
  induction data as [|d ds IH]; intros [|m ms] n l H; simpl in *; try discriminate.
  - right. split; [apply bad_nil|]. exists 0. split; [constructor|]. f_equal; lra.
  - destruct (Rltb_spec m 0) as [Hm|Hm].
    { left. split; auto. apply bad_cons. left. now left. }
    destruct (Rltb_spec eps_data d) as [Hd|Hd].
    + destruct (Rleb_spec m 0) as [Hm0|Hm0].
      { left. split; auto. apply bad_cons. left. right. auto. }
      destruct (IH ms (n + m) (l + d * ln m) ltac:(lia)) as [[B E]|[B (v & P & E)]].
      * left. split; auto. apply bad_cons; auto.
      * right. split.
        { rewrite bad_cons. intros [[|[_ ]]|]; auto. }
        exists (d * ln m - m + v). split; [now constructor|]. rewrite E. f_equal; lra.
    + destruct (IH ms (n + m) l ltac:(lia)) as [[B E]|[B (v & P & E)]].
      * left. split; auto. apply bad_cons; auto.
      * right. split.
        { rewrite bad_cons. intros [[|[? _]]|]; auto. }
        exists (- m + v). split; [now constructor|]. rewrite E. f_equal; lra.
Qed.

Lemma ll_spec data model : length data = length model ->
  (bad data model /\ logLikePoisson data model = Throw) \/
  (~ bad data model /\ exists v, poisson data model v /\ logLikePoisson data model = Ok v).
Proof.
  intros H. unfold logLikePoisson. rewrite (proj2 (Nat.eqb_eq _ _) H). simpl.
  destruct (pois_loop_spec data model 0 0 H) as [?|[B (v & P & E)]]; auto.
  right. split; auto. exists v. split; auto. rewrite E. f_equal; lra.
Qed.

Lemma poisson_fun data model v w : poisson data model v -> poisson data model w -> v = w.
Proof.
  intros H. revert w. induction H as [|d m ds ms v Hd H IH|d m ds ms v Hd H IH]; intros w W; inversion W; subst; auto;
    try contradiction; f_equal; auto.
Qed.
Lemma poisson_length data model v : poisson data model v -> length data = length model.
Proof. induction 1; simpl; auto. Qed.
Lemma poisson_app d1 m1 v1 d2 m2 v2 : poisson d1 m1 v1 -> poisson d2 m2 v2 -> poisson (d1 ++ d2) (m1 ++ m2) (v1 + v2).
Proof.
  induction 1 as [|d m ds ms v Hd H IH|d m ds ms v Hd H IH]; intros P; simpl.
  - now rewrite Rplus_0_l.
  - replace (d * ln m - m + v + v2) with (d * ln m - m + (v + v2)) by lra. constructor; auto.
  - replace (- m + v + v2) with (- m + (v + v2)) by lra. constructor; auto.
Qed.
Lemma bad_app d1 m1 d2 m2 : length d1 = length m1 -> (bad (d1 ++ d2) (m1 ++ m2) <-> bad d1 m1 \/ bad d2 m2).
Proof.
  revert m1; induction d1 as [|d d1 IH]; intros [|m m1] H; simpl in *; try discriminate.
  - split; [now right|]. intros [B|]; auto. now apply bad_nil in B.
  - rewrite !bad_cons, IH by lia. tauto.
Qed.
Lemma poisson_total data : forall model, length data = length model -> exists v, poisson data model v.
Proof.
  induction data as [|d ds IH]; intros [|m ms] H; simpl in *; try discriminate.
  - exists 0; constructor.
  - destruct (IH ms ltac:(lia)) as [v P]. destruct (Rltb_spec eps_data d).
    + eexists; apply poisson_data; eauto.
    + eexists; apply poisson_empty; eauto.
Qed.

(** Equal verdicts and equal sums give equal outcomes. *)
Lemma ll_ext d1 m1 d2 m2 : length d1 = length m1 -> length d2 = length m2 ->
  (bad d1 m1 <-> bad d2 m2) -> (forall v, poisson d1 m1 v -> poisson d2 m2 v) ->
  logLikePoisson d1 m1 = logLikePoisson d2 m2.
Proof.
  intros L1 L2 B P. destruct (ll_spec d1 m1 L1) as [[B1 E1]|[B1 (v1 & P1 & E1)]];
  destruct (ll_spec d2 m2 L2) as [[B2 E2]|[B2 (v2 & P2 & E2)]]; rewrite E1, E2; [reflexivity|exfalso; tauto|exfalso; tauto|].
  f_equal. apply (poisson_fun d2 m2); auto.
Qed.

Lemma ll_perm (ps qs : list (R * R)) : Permutation ps qs ->
  logLikePoisson (map fst ps) (map snd ps) = logLikePoisson (map fst qs) (map snd qs).
Proof.
  assert (L : forall l : list (R * R), length (map fst l) = length (map snd l)) by (intros; now rewrite !map_length).
  intros H. apply ll_ext; auto.
  - induction H as [|[d m] l l' _ IH|[d m] [d' m'] l|l1 l2 l3 _ IH1 _ IH2]; simpl; rewrite ?bad_cons; tauto.
  - intros v P.
    assert (G : forall a b : list (R * R), Permutation a b -> forall v w, poisson (map fst a) (map snd a) v ->
                poisson (map fst b) (map snd b) w -> v = w).
    { clear. induction 1 as [|[d m] l l' _ IH|[d m] [d' m'] l|l1 l2 l3 _ IH1 _ IH2]; intros v w P Q.
      - eapply poisson_fun; eauto.
      - simpl in *. inversion P; inversion Q; subst; try contradiction; f_equal; auto.
      - simpl in *. inversion P; inversion Q; subst;
        match goal with A : poisson (d :: _) _ _, B : poisson (d' :: _) _ _ |- _ => inversion A; inversion B; subst end;
        try contradiction;
        match goal with A : poisson (map fst l) _ ?x, B : poisson (map fst l) _ ?y |- _ =>
          pose proof (poisson_fun _ _ _ _ A B); subst; lra end.
      - destruct (poisson_total (map fst l2) (map snd l2)) as [u U]; [now rewrite !map_length|].
        transitivity u; eauto. }
    destruct (poisson_total (map fst qs) (map snd qs) (L qs)) as [u U].
    rewrite (G _ _ H _ _ P U). exact U.
Qed.

Lemma ll_app d1 m1 d2 m2 v1 v2 : logLikePoisson d1 m1 = Ok v1 -> logLikePoisson d2 m2 = Ok v2 ->
  logLikePoisson (d1 ++ d2) (m1 ++ m2) = Ok (v1 + v2).
Proof.
  assert (L : forall d m v, logLikePoisson d m = Ok v -> length d = length m).
  { intros d m v H. unfold logLikePoisson in H. destruct (Nat.eqb_spec (length d) (length m)); [auto|discriminate]. }
  intros H1 H2. pose proof (L _ _ _ H1) as L1. pose proof (L _ _ _ H2) as L2.
  destruct (ll_spec d1 m1 L1) as [[_ E]|[B1 (w1 & P1 & E)]]; rewrite E in H1; [discriminate|injection H1 as ->].
  destruct (ll_spec d2 m2 L2) as [[_ E']|[B2 (w2 & P2 & E')]]; rewrite E' in H2; [discriminate|injection H2 as ->].
  pose proof (poisson_app _ _ _ _ _ _ P1 P2) as P.
  destruct (ll_spec (d1 ++ d2) (m1 ++ m2)) as [[B _]|[B (w & P' & E'')]].
  - rewrite !app_length; lia.
  - apply bad_app in B; tauto.
  - rewrite E''. f_equal. eapply poisson_fun; eauto.
Qed.

(** ** Weighted *)
Definition badW (data model w : list R) : Prop :=
  exists i d m wt, nth_error data i = Some d /\ nth_error model i = Some m /\ nth_error w i = Some wt /\
    impossible (wt * d) m.
Lemma badW_cons d m w ds ms ws : badW (d :: ds) (m :: ms) (w :: ws) <-> impossible (w * d) m \/ badW ds ms ws.
Proof.
  split.
  - intros ([|i] & d' & m' & w' & H1 & H2 & H3 & H4); simpl in *.
    + injection H1 as ->; injection H2 as ->; injection H3 as ->; auto.
    + right. exists i, d', m', w'; auto.
  - intros [H|(i & d' & m' & w' & H1 & H2 & H3)].
    + exists 0%nat, d, m, w; auto.
    + exists (S i), d', m', w'; auto.
Qed.
Lemma badW_nil ms ws : ~ badW [] ms ws.
Proof. intros ([|i] & d & m & w & H & _); discriminate. Qed.

Lemma poisw_loop_spec : forall data model w n l, length data = length model -> length data = length w ->
  (badW data model w /\ poisw_loop data model w n l = Throw) \/
  (~ badW data model w /\ exists v, poissonW data model w v /\ poisw_loop data model w n l = Ok (l - n + v)).
Proof.
  induction data as [|d ds IH]; intros [|m ms] [|w ws] n l H H'; simpl in *; try discriminate.
  - right. split; [apply badW_nil|]. exists 0. split; [constructor|]. f_equal; lra.
  - rewrite (Rmult_comm d w).
    destruct (Rltb_spec m 0) as [Hm|Hm].
    { left. split; auto. apply badW_cons. left. now left. }
    destruct (Rltb_spec eps_data (w * d)) as [Hd|Hd].
    + destruct (Rleb_spec m 0) as [Hm0|Hm0].
      { left. split; auto. apply badW_cons. left. right. auto. }
      destruct (IH ms ws (n + m * w) (l + w * d * ln m) ltac:(lia) ltac:(lia)) as [[B E]|[B (v & P & E)]].
      * left. split; auto. apply badW_cons; auto.
      * right. split.
        { rewrite badW_cons. intros [[|[_ ]]|]; auto. }
        exists (w * (d * ln m - m) + v). split; [now constructor|]. rewrite E. f_equal; lra.
    + destruct (IH ms ws (n + m * w) l ltac:(lia) ltac:(lia)) as [[B E]|[B (v & P & E)]].
      * left. split; auto. apply badW_cons; auto.
      * right. split.
        { rewrite badW_cons. intros [[|[? _]]|]; auto. }
        exists (w * - m + v). split; [now constructor|]. rewrite E. f_equal; lra.
Qed.

Lemma llw_spec data model w : length data = length model -> length data = length w ->
  (badW data model w /\ logLikePoissonW data model w = Throw) \/
  (~ badW data model w /\ exists v, poissonW data model w v /\ logLikePoissonW data model w = Ok v).
Proof.
  intros H H'. unfold logLikePoissonW. rewrite (proj2 (Nat.eqb_eq _ _) H), (proj2 (Nat.eqb_eq _ _) H'). simpl.
  destruct (poisw_loop_spec data model w 0 0 H H') as [?|[B (v & P & E)]]; auto.
  right. split; auto. exists v. split; auto. rewrite E. f_equal; lra.
Qed.
Lemma poissonW_fun data model w v v' : poissonW data model w v -> poissonW data model w v' -> v = v'.
Proof.
  intros H. revert v'. induction H; intros v' W; inversion W; subst; auto;
    try contradiction; f_equal; auto.
Qed.
Lemma poissonW_total data : forall model w, length data = length model -> length data = length w ->
  exists v, poissonW data model w v.
Proof.
  induction data as [|d ds IH]; intros [|m ms] [|w ws] H H'; simpl in *; try discriminate.
  - exists 0; constructor.
  - destruct (IH ms ws ltac:(lia) ltac:(lia)) as [v P]. destruct (Rltb_spec eps_data (w * d)).
    + eexists; apply poissonW_data; eauto.
    + eexists; apply poissonW_empty; eauto.
Qed.
Lemma poissonW_app d1 m1 w1 v1 d2 m2 w2 v2 : poissonW d1 m1 w1 v1 -> poissonW d2 m2 w2 v2 ->
  poissonW (d1 ++ d2) (m1 ++ m2) (w1 ++ w2) (v1 + v2).
Proof.
  induction 1 as [|d m w ds ms ws v Hd H IH|d m w ds ms ws v Hd H IH]; intros P; simpl.
  - now rewrite Rplus_0_l.
  - replace (w * (d * ln m - m) + v + v2) with (w * (d * ln m - m) + (v + v2)) by lra. constructor; auto.
  - replace (w * - m + v + v2) with (w * - m + (v + v2)) by lra. constructor; auto.
Qed.
Lemma badW_app d1 m1 w1 d2 m2 w2 : length d1 = length m1 -> length d1 = length w1 ->
  (badW (d1 ++ d2) (m1 ++ m2) (w1 ++ w2) <-> badW d1 m1 w1 \/ badW d2 m2 w2).
Proof.
  revert m1 w1; induction d1 as [|d d1 IH]; intros [|m m1] [|w w1] H H'; simpl in *; try discriminate.
  - split; [now right|]. intros [B|]; auto. now apply badW_nil in B.
  - rewrite !badW_cons, IH by lia. tauto.
Qed.
Lemma llw_ext d1 m1 w1 d2 m2 w2 : length d1 = length m1 -> length d1 = length w1 ->
  length d2 = length m2 -> length d2 = length w2 ->
  (badW d1 m1 w1 <-> badW d2 m2 w2) -> (forall v, poissonW d1 m1 w1 v -> poissonW d2 m2 w2 v) ->
  logLikePoissonW d1 m1 w1 = logLikePoissonW d2 m2 w2.
Proof.
  intros L1 L1' L2 L2' B P. destruct (llw_spec d1 m1 w1 L1 L1') as [[B1 E1]|[B1 (v1 & P1 & E1)]];
  destruct (llw_spec d2 m2 w2 L2 L2') as [[B2 E2]|[B2 (v2 & P2 & E2)]]; rewrite E1, E2; [reflexivity|exfalso; tauto|exfalso; tauto|].
  f_equal. apply (poissonW_fun d2 m2 w2); auto.
Qed.

(** ** One layer of the reduced representation *)
Definition redd (ds : list R) : list R := filter (Rltb eps_zero) ds ++ [0].
Fixpoint redm (ds ms : list R) (z : R) : list R :=
  match ds, ms with
  | d :: ds', m :: ms' => if Rltb eps_zero d then m :: redm ds' ms' z else redm ds' ms' (z + m)
  | _, _ => [z]
  end.
Fixpoint redw (ds ms ws : list R) (zw z : R) : list R :=
  match ds, ms, ws with
  | d :: ds', m :: ms', w :: ws' =>
      if Rltb eps_zero d then w :: redw ds' ms' ws' zw z else redw ds' ms' ws' (zw + w * m) (z + m)
  | _, _, _ => [if Rltb 0 z then zw / z else 1]
  end.
Fixpoint bins_from (i : nat) (ds : list R) : list Z :=
  match ds with
  | [] => [(- Z.of_nat i)%Z]
  | d :: ds' => (if Rltb eps_zero d then [Z.of_nat i] else []) ++ bins_from (S i) ds'
  end.
Definition red_app (r : reduced) (i : nat) (ds : list R) : reduced :=
  mk_red (r_bins r ++ bins_from i ds) (r_data r ++ redd ds) (r_stops r ++ [length (r_data r ++ redd ds)]).

Lemma red_app_cons r i d ds :
  red_app (if Rltb eps_zero d then push_bin r (Z.of_nat i) d else r) (S i) ds = red_app r i (d :: ds).
Proof.
  unfold red_app, redd, push_bin. simpl. destruct (Rltb eps_zero d); simpl; auto.
  rewrite <- !app_assoc. reflexivity.
Qed.
Lemma red_app_one r i d :
  push_placeholder (if Rltb eps_zero d then push_bin r (Z.of_nat i) d else r) i = red_app r i [d].
Proof.
  rewrite <- red_app_cons. unfold red_app, push_placeholder, push_stop, push_bin, redd. simpl.
  replace (i + 1)%nat with (S i) by lia. reflexivity.
Qed.

Lemma extl_layer firstPix : forall ds il i rest r, ds <> [] ->
  nth_error firstPix il = Some (i + length ds)%nat ->
  extl_loop firstPix il i (ds ++ rest) r = extl_loop firstPix (S il) (i + length ds) rest (red_app r i ds).
Proof.
  induction ds as [|d ds IH]; intros il i rest r N H; [contradiction|]. simpl.
  unfold vec_get. rewrite H. simpl.
  destruct ds as [|d' ds].
  - simpl. rewrite Nat.eqb_refl, red_app_one. f_equal. lia.
  - rewrite (proj2 (Nat.eqb_neq _ _)) by (simpl; lia).
    rewrite IH by (try discriminate; rewrite H; f_equal; simpl; lia).
    rewrite red_app_cons. f_equal. simpl. lia.
Qed.

Lemma ext_layer npix : forall ds q j rest r, (0 < npix)%nat -> ds <> [] -> (j + length ds = npix)%nat ->
  ext_loop npix (q * npix + j) (ds ++ rest) r = ext_loop npix (q * npix + npix) rest (red_app r (q * npix + j) ds).
Proof.
  induction ds as [|d ds IH]; intros q j rest r P N H; [contradiction|]. simpl.
  rewrite (proj2 (Nat.eqb_neq npix 0)) by lia.
  destruct ds as [|d' ds].
  - simpl in *. replace (q * npix + j + 1)%nat with (0 + (q + 1) * npix)%nat by lia.
    rewrite Nat.mod_add, Nat.mod_0_l by lia. simpl. rewrite red_app_one. f_equal. lia.
  - assert (E : ((q * npix + j + 1) mod npix <> 0)%nat).
    { replace (q * npix + j + 1)%nat with (j + 1 + q * npix)%nat by lia.
      rewrite Nat.mod_add by lia. rewrite Nat.mod_small by (simpl in H; lia). lia. }
    rewrite (proj2 (Nat.eqb_neq _ _) E).
    replace (S (q * npix + j)) with (q * npix + S j)%nat by lia.
    rewrite IH by (try discriminate; simpl in *; lia).
    replace (q * npix + S j)%nat with (S (q * npix + j)) by lia.
    rewrite red_app_cons. reflexivity.
Qed.

(** All layers. *)
Fixpoint bins_layers (i : nat) (dss : list (list R)) : list Z :=
  match dss with [] => [] | ds :: dss' => bins_from i ds ++ bins_layers (i + length ds) dss' end.

Lemma cumul_nth ns : forall acc k, (k < length ns)%nat ->
  nth_error (cumul acc ns) k = Some (acc + list_sum (firstn (S k) ns))%nat.
Proof.
  induction ns as [|n ns IH]; intros acc [|k] H; simpl in *; try lia.
  - f_equal. lia.
  - rewrite IH by lia. f_equal. simpl. lia.
Qed.
Lemma cumul_length ns : forall acc, length (cumul acc ns) = length ns.
Proof. induction ns; intros; simpl; auto. Qed.

Fixpoint red_all (r : reduced) (i : nat) (dss : list (list R)) : reduced :=
  match dss with [] => r | ds :: dss' => red_all (red_app r i ds) (i + length ds) dss' end.

Lemma red_all_eq dss : forall r i,
  red_all r i dss = mk_red (r_bins r ++ bins_layers i dss) (r_data r ++ concat (map redd dss))
    (r_stops r ++ cumul (length (r_data r)) (map (fun ds => length (redd ds)) dss)).
Proof.
  induction dss as [|ds dss IH]; intros r i; simpl.
  - destruct r; simpl. now rewrite !app_nil_r.
  - rewrite IH. unfold red_app. simpl. rewrite <- !app_assoc. simpl. rewrite app_length. reflexivity.
Qed.

Lemma extl_all dss : forall pre il i r, Forall (fun ds => ds <> []) dss ->
  length pre = il ->
  extl_loop (pre ++ cumul i (map (@length R) dss)) il i (concat dss) r = Ok (red_all r i dss).
Proof.
  induction dss as [|ds dss IH]; intros pre il i r F L; simpl; auto.
  inversion F; subst.
  rewrite extl_layer; auto.
  - replace (pre ++ (i + length ds)%nat :: cumul (i + length ds) (map (@length R) dss))
      with ((pre ++ [(i + length ds)%nat]) ++ cumul (i + length ds) (map (@length R) dss)) by now rewrite <- app_assoc.
    apply IH; auto. rewrite app_length. simpl. lia.
  - rewrite nth_error_app2, Nat.sub_diag by lia. reflexivity.
Qed.

Lemma ext_all npix dss : (0 < npix)%nat -> forall q r, Forall (fun ds => length ds = npix) dss ->
  ext_loop npix (q * npix) (concat dss) r = Ok (red_all r (q * npix) dss).
Proof.
  intros P. induction dss as [|ds dss IH]; intros q r F; simpl; auto.
  inversion F as [|? ? L F']; subst.
  rewrite <- (Nat.add_0_r (q * length ds)) at 1. rewrite ext_layer; auto.
  - rewrite Nat.add_0_r. replace (q * length ds + length ds)%nat with (S q * length ds)%nat by lia.
    rewrite IH; auto.
  - intros ->; simpl in P; lia.
Qed.

(** ** Compressing the model *)
Lemma sum_to_snoc model : forall n i z z', sum_to model i n z = Ok z' ->
  sum_to model i (S n) z = obind (vec_get model (i + n)) (fun x => Ok (z' + x)).
Proof.
  induction n as [|n IH]; intros i z z' H.
  - simpl in *. injection H as <-. rewrite Nat.add_0_r. reflexivity.
  - change (sum_to model i (S (S n)) z) with (obind (vec_get model i) (fun x => sum_to model (S i) (S n) (z + x))).
    simpl in H. destruct (vec_get model i) as [x| |]; try discriminate. simpl in H.
    cbn [obind]. rewrite (IH _ _ _ H). replace (i + S n)%nat with (S i + n)%nat by lia. reflexivity.
Qed.

Lemma skipn_cons_nth {A} (l : list A) i x r : skipn i l = x :: r -> nth_error l i = Some x /\ skipn (S i) l = r.
Proof.
  revert l; induction i as [|i IH]; intros [|y l] H; simpl in *; try discriminate.
  - injection H as -> ->. auto.
  - destruct (IH _ H) as [? E]. split; auto.
Qed.

Lemma sp_layer model : forall ds ms i i0 z0 z bs rest, (i0 <= i)%nat -> (0 < i + length ds)%nat ->
  skipn i model = ms ++ rest -> length ds = length ms -> sum_to model i0 (i - i0) z0 = Ok z ->
  sp_loop (bins_from i ds ++ bs) model i0 z0 =
  obind (sp_loop bs model (i + length ds) 0) (fun l => Ok (redm ds ms z ++ l)).
Proof.
  induction ds as [|d ds IH]; intros [|m ms] i i0 z0 z bs rest Hi Hp Hs Hl Hz; try discriminate.
  - simpl in Hp. cbn [bins_from app sp_loop redm length].
    replace (Z.to_nat (Z.abs (- Z.of_nat i))) with i by lia.
    rewrite Hz. cbn [obind]. rewrite (proj2 (Z.ltb_lt _ _)) by lia.
    replace (Nat.max i0 i) with (i + 0)%nat by lia. reflexivity.
  - simpl in Hs. destruct (skipn_cons_nth _ _ _ _ Hs) as [Hn Hs'].
    cbn [bins_from redm length]. destruct (Rltb eps_zero d) eqn:Ed.
    + cbn [app sp_loop]. replace (Z.to_nat (Z.abs (Z.of_nat i))) with i by lia.
      rewrite Hz. cbn [obind]. rewrite (proj2 (Z.ltb_ge _ _)) by lia.
      replace (Nat.max i0 i) with i by lia.
      unfold vec_get at 1. rewrite Hn. cbn [obind].
      rewrite (IH ms (S i) (S i) z z bs rest) by (auto; try lia; rewrite Nat.sub_diag; reflexivity).
      replace (i + S (length ds))%nat with (S i + length ds)%nat by lia.
      destruct (sp_loop bs model (S i + length ds) 0); reflexivity.
    + cbn [app]. rewrite (IH ms (S i) i0 z0 (z + m) bs rest); auto; try lia.
      * replace (i + S (length ds))%nat with (S i + length ds)%nat by lia. reflexivity.
      * replace (S i - i0)%nat with (S (i - i0)) by lia. rewrite (sum_to_snoc _ _ _ _ _ Hz).
        replace (i0 + (i - i0))%nat with i by lia. unfold vec_get. rewrite Hn. reflexivity.
Qed.

Lemma sp_all model dss : forall mss i rest, Forall2 (fun ds ms => length ds = length ms /\ ds <> []) dss mss ->
  skipn i model = concat mss ++ rest ->
  sp_loop (bins_layers i dss) model i 0 = Ok (concat (map2 (fun ds ms => redm ds ms 0) dss mss)).
Proof.
  induction dss as [|ds dss IH]; intros mss i rest F Hs; inversion F as [|? ms ? mss' [L N] F']; subst; simpl; auto.
  simpl in Hs. rewrite <- app_assoc in Hs.
  rewrite (sp_layer model ds ms i i 0 0 _ (concat mss' ++ rest)); auto.
  - rewrite (IH mss' (i + length ds)%nat rest); auto.
    rewrite <- skipn_add, Hs, L, skipn_app, Nat.sub_diag, skipn_all. reflexivity.
  - destruct ds; [contradiction|simpl; lia].
  - rewrite Nat.sub_diag. reflexivity.
Qed.

Lemma sumw_to_snoc weights model : forall n i zw z p, sumw_to weights model i n zw z = Ok p ->
  sumw_to weights model i (S n) zw z =
  obind (vec_get weights (i + n)) (fun w => obind (vec_get model (i + n)) (fun x => Ok (fst p + w * x, snd p + x))).
Proof.
  induction n as [|n IH]; intros i zw z p H.
  - simpl in *. injection H as <-. rewrite Nat.add_0_r. reflexivity.
  - change (sumw_to weights model i (S (S n)) zw z) with
      (obind (vec_get weights i) (fun w => obind (vec_get model i) (fun x =>
         sumw_to weights model (S i) (S n) (zw + w * x) (z + x)))).
    simpl in H. destruct (vec_get weights i) as [w| |]; try discriminate. simpl in H.
    destruct (vec_get model i) as [x| |]; try discriminate. simpl in H.
    cbn [obind]. rewrite (IH _ _ _ _ H). replace (i + S n)%nat with (S i + n)%nat by lia. reflexivity.
Qed.

Lemma spw_layer weights model : forall ds ms ws i i0 zw0 z0 zw z bs restm restw,
  (i0 <= i)%nat -> (0 < i + length ds)%nat ->
  skipn i model = ms ++ restm -> skipn i weights = ws ++ restw ->
  length ds = length ms -> length ds = length ws -> sumw_to weights model i0 (i - i0) zw0 z0 = Ok (zw, z) ->
  spw_loop (bins_from i ds ++ bs) weights model i0 zw0 z0 =
  obind (spw_loop bs weights model (i + length ds) 0 0) (fun l => Ok (redw ds ms ws zw z ++ l)).
Proof.
  induction ds as [|d ds IH]; intros [|m ms] [|w ws] i i0 zw0 z0 zw z bs restm restw Hi Hp Hs Hsw Hl Hlw Hz; try discriminate.
  - simpl in Hp. cbn [bins_from app spw_loop redw length].
    replace (Z.to_nat (Z.abs (- Z.of_nat i))) with i by lia.
    rewrite Hz. cbn [obind]. rewrite (proj2 (Z.ltb_lt _ _)) by lia.
    replace (Nat.max i0 i) with (i + 0)%nat by lia. reflexivity.
  - simpl in Hs, Hsw. destruct (skipn_cons_nth _ _ _ _ Hs) as [Hn Hs'].
    destruct (skipn_cons_nth _ _ _ _ Hsw) as [Hnw Hsw'].
    cbn [bins_from redw length]. destruct (Rltb eps_zero d) eqn:Ed.
    + cbn [app spw_loop]. replace (Z.to_nat (Z.abs (Z.of_nat i))) with i by lia.
      rewrite Hz. cbn [obind]. rewrite (proj2 (Z.ltb_ge _ _)) by lia.
      replace (Nat.max i0 i) with i by lia.
      unfold vec_get at 1. rewrite Hnw. cbn [obind].
      rewrite (IH ms ws (S i) (S i) zw z zw z bs restm restw) by (auto; try lia; rewrite Nat.sub_diag; reflexivity).
      replace (i + S (length ds))%nat with (S i + length ds)%nat by lia.
      destruct (spw_loop bs weights model (S i + length ds) 0 0); reflexivity.
    + cbn [app]. rewrite (IH ms ws (S i) i0 zw0 z0 (zw + w * m) (z + m) bs restm restw); auto; try lia.
      * replace (i + S (length ds))%nat with (S i + length ds)%nat by lia. reflexivity.
      * replace (S i - i0)%nat with (S (i - i0)) by lia. rewrite (sumw_to_snoc _ _ _ _ _ _ _ Hz).
        replace (i0 + (i - i0))%nat with i by lia. unfold vec_get. rewrite Hn, Hnw. reflexivity.
Qed.

(** [lay2]: two layered vectors of the same shape; [lay3]: three. *)
Definition shape2 (dss mss : list (list R)) : Prop := Forall2 (fun ds ms => length ds = length ms /\ ds <> []) dss mss.

Fixpoint redws (dss mss wss : list (list R)) : list R :=
  match dss, mss, wss with
  | ds :: dss', ms :: mss', ws :: wss' => redw ds ms ws 0 0 ++ redws dss' mss' wss'
  | _, _, _ => []
  end.

Lemma spw_all weights model dss : forall mss wss i restm restw, shape2 dss mss -> shape2 dss wss ->
  skipn i model = concat mss ++ restm -> skipn i weights = concat wss ++ restw ->
  spw_loop (bins_layers i dss) weights model i 0 0 = Ok (redws dss mss wss).
Proof.
  induction dss as [|ds dss IH]; intros mss wss i restm restw F G Hs Hsw;
    inversion F as [|? ms ? mss' [L N] F']; inversion G as [|? ws ? wss' [L' N'] G']; subst; simpl; auto.
  simpl in Hs, Hsw. rewrite <- app_assoc in Hs, Hsw.
  rewrite (spw_layer weights model ds ms ws i i 0 0 0 0 _ (concat mss' ++ restm) (concat wss' ++ restw)); auto.
  - rewrite (IH mss' wss' (i + length ds)%nat restm restw); auto.
    + rewrite <- skipn_add, Hs, L, skipn_app, Nat.sub_diag, skipn_all. reflexivity.
    + rewrite <- skipn_add, Hsw, L', skipn_app, Nat.sub_diag, skipn_all. reflexivity.
  - destruct ds; [contradiction|simpl; lia].
  - rewrite Nat.sub_diag. reflexivity.
Qed.

(** ** A layer and its reduction have the same log-likelihood *)
Lemma redm_length ds : forall ms z, length ds = length ms -> length (redm ds ms z) = length (redd ds).
Proof.
  unfold redd. induction ds as [|d ds IH]; intros [|m ms] z H; simpl in *; try discriminate; auto.
  destruct (Rltb eps_zero d); simpl; rewrite IH by lia; auto.
Qed.
Lemma redw_length ds : forall ms ws zw z, length ds = length ms -> length ds = length ws ->
  length (redw ds ms ws zw z) = length (redd ds).
Proof.
  unfold redd. induction ds as [|d ds IH]; intros [|m ms] [|w ws] zw z H H'; simpl in *; try discriminate; auto.
  destruct (Rltb eps_zero d); simpl; rewrite IH by lia; auto.
Qed.

Lemma not_data_0 : ~ has_data 0.
Proof. unfold has_data. pose proof eps_data_pos. unfold eps_data in *. lra. Qed.
Lemma dropped_no_data d : ~ eps_zero < d -> ~ has_data d.
Proof. unfold has_data. pose proof eps_zero_data. unfold eps_data in *. intros; lra. Qed.

Lemma red_poisson ds : forall ms z v, poisson ds ms v -> poisson (redd ds) (redm ds ms z) (v - z).
Proof.
  unfold redd. induction ds as [|d ds IH]; intros ms z v P; inversion P; subst; simpl.
  - replace (0 - z) with (- z + 0) by lra. apply poisson_empty; [apply not_data_0|constructor].
  - destruct (Rltb_spec eps_zero d) as [H|H].
    + simpl. match goal with |- poisson _ _ (?a + ?b - z) => replace (a + b - z) with (a + (b - z)) by lra end.
      apply poisson_data; auto.
    + exfalso. eapply dropped_no_data; eauto.
  - destruct (Rltb_spec eps_zero d) as [H|H].
    + simpl. match goal with |- poisson _ _ (?a + ?b - z) => replace (a + b - z) with (a + (b - z)) by lra end.
      apply poisson_empty; auto.
    + match goal with |- poisson _ _ (- ?a + ?b - z) => replace (- a + b - z) with (b - (z + a)) by lra end.
      apply IH; auto.
Qed.
Lemma red_bad ds : forall ms z, length ds = length ms -> Forall (Rle 0) ms -> 0 <= z ->
  (bad (redd ds) (redm ds ms z) <-> bad ds ms).
Proof.
  unfold redd. induction ds as [|d ds IH]; intros [|m ms] z H F Z; simpl in *; try discriminate.
  - rewrite bad_cons. split; [|intros B; now apply bad_nil in B].
    intros [[|[B _]]|B]; [lra|now apply not_data_0 in B|now apply bad_nil in B].
  - inversion F; subst. destruct (Rltb_spec eps_zero d) as [D|D]; simpl.
    + rewrite !bad_cons, IH by (auto; lia). tauto.
    + rewrite IH by (auto; try lia; lra). rewrite bad_cons. split; [tauto|].
      intros [[|[B _]]|B]; auto; [lra|]. exfalso. eapply dropped_no_data; eauto.
Qed.

Definition wbound (ds ws : list R) : Prop :=
  Forall2 (fun d w => ~ eps_zero < d -> ~ has_data (w * d)) ds ws.

Lemma redw_poisson ds : forall ms ws zw z v, Forall (Rle 0) ms -> wbound ds ws -> 0 <= z -> (z = 0 -> zw = 0) ->
  poissonW ds ms ws v -> poissonW (redd ds) (redm ds ms z) (redw ds ms ws zw z) (v - zw).
Proof.
  unfold redd. induction ds as [|d ds IH]; intros ms ws zw z v F W Hz Hzw P; inversion P; subst; simpl.
  - destruct (Rltb_spec 0 z) as [Z|Z].
    + replace (0 - zw) with (zw / z * - z + 0) by (field; lra). apply poissonW_empty; [|constructor].
      rewrite Rmult_0_r. apply not_data_0.
    + assert (z = 0) by lra. rewrite (Hzw H), H. replace (0 - 0) with (1 * - 0 + 0) by lra.
      apply poissonW_empty; [|constructor]. rewrite Rmult_0_r. apply not_data_0.
  - inversion F; inversion W; subst.
    destruct (Rltb_spec eps_zero d) as [H|H].
    + simpl. match goal with |- poissonW _ _ _ (?a + ?b - ?c) => replace (a + b - c) with (a + (b - c)) by lra end.
      apply poissonW_data; auto.
    + exfalso. match goal with A : _ -> ~ has_data _ |- _ => now apply A end.
  - inversion F; inversion W; subst.
    destruct (Rltb_spec eps_zero d) as [H|H].
    + simpl. match goal with |- poissonW _ _ _ (?a + ?b - ?c) => replace (a + b - c) with (a + (b - c)) by lra end.
      apply poissonW_empty; auto.
    + match goal with |- poissonW _ _ _ (?w * - ?a + ?b - ?c) => replace (w * - a + b - c) with (b - (c + w * a)) by lra end.
      apply IH; auto; [lra|]. intros E. assert (Z0 : z = 0) by lra. rewrite (Hzw Z0).
      match goal with |- 0 + w * ?a = 0 => assert (a = 0) as -> by lra end. lra.
Qed.
Lemma redw_bad ds : forall ms ws zw z, length ds = length ms -> length ds = length ws ->
  Forall (Rle 0) ms -> wbound ds ws -> 0 <= z ->
  (badW (redd ds) (redm ds ms z) (redw ds ms ws zw z) <-> badW ds ms ws).
Proof.
  unfold redd. induction ds as [|d ds IH]; intros [|m ms] [|w ws] zw z H H' F W Z; simpl in *; try discriminate.
  - rewrite badW_cons, Rmult_0_r. split; [|intros B; now apply badW_nil in B].
    intros [[|[B _]]|B]; [lra|now apply not_data_0 in B|now apply badW_nil in B].
  - inversion F; inversion W; subst. destruct (Rltb_spec eps_zero d) as [D|D]; simpl.
    + rewrite !badW_cons, IH by (auto; lia). tauto.
    + rewrite IH by (auto; try lia; lra). rewrite badW_cons. split; [tauto|].
      intros [[|[B _]]|B]; auto; [lra|]. exfalso. match goal with A : _ -> ~ has_data _ |- _ => now apply A end.
Qed.

(** ** Ranges of layers *)
Lemma concat_firstn {A} (xss : list (list A)) k :
  firstn (list_sum (firstn k (map (@length A) xss))) (concat xss) = concat (firstn k xss).
Proof.
  revert k; induction xss as [|xs xss IH]; intros [|k]; simpl; auto.
  rewrite firstn_app, firstn_all2 by lia. f_equal.
  replace (length xs + list_sum (firstn k (map (@length A) xss)) - length xs)%nat
    with (list_sum (firstn k (map (@length A) xss))) by lia. apply IH.
Qed.
Lemma concat_skipn {A} (xss : list (list A)) k :
  skipn (list_sum (firstn k (map (@length A) xss))) (concat xss) = concat (skipn k xss).
Proof.
  revert k; induction xss as [|xs xss IH]; intros [|k]; simpl; auto.
  rewrite skipn_app, skipn_all2 by lia. simpl.
  replace (length xs + list_sum (firstn k (map (@length A) xss)) - length xs)%nat
    with (list_sum (firstn k (map (@length A) xss))) by lia. apply IH.
Qed.
Lemma skipn_firstn_layers {A} (xss : list (list A)) a b : (a <= b)%nat ->
  skipn (list_sum (firstn a (map (@length A) xss))) (firstn (list_sum (firstn b (map (@length A) xss))) (concat xss))
  = layers xss a b.
Proof.
  intros H. rewrite concat_firstn. unfold layers.
  replace (firstn a (map (@length A) xss)) with (firstn a (map (@length A) (firstn b xss))).
  - rewrite concat_skipn. f_equal. apply skipn_firstn_comm.
  - rewrite firstn_map, firstn_map, firstn_firstn. now replace (Nat.min a b) with a by lia.
Qed.

Lemma map_length_redm dss : forall mss, shape2 dss mss ->
  map (@length R) (map2 (fun ds ms => redm ds ms 0) dss mss) = map (fun ds => length (redd ds)) dss.
Proof.
  induction dss as [|ds dss IH]; intros mss F; inversion F as [|? ms ? mss' [L N] F']; subst; simpl; auto.
  rewrite redm_length by auto. f_equal. auto.
Qed.

Fixpoint redws_l (dss mss wss : list (list R)) : list (list R) :=
  match dss, mss, wss with
  | ds :: dss', ms :: mss', ws :: wss' => redw ds ms ws 0 0 :: redws_l dss' mss' wss'
  | _, _, _ => []
  end.
Lemma redws_concat dss : forall mss wss, redws dss mss wss = concat (redws_l dss mss wss).
Proof. induction dss; intros [|] [|]; simpl; auto. now f_equal. Qed.
Lemma map_length_redws dss : forall mss wss, shape2 dss mss -> shape2 dss wss ->
  map (@length R) (redws_l dss mss wss) = map (fun ds => length (redd ds)) dss.
Proof.
  induction dss as [|ds dss IH]; intros mss wss F G;
    inversion F as [|? ms ? mss' [L N] F']; inversion G as [|? ws ? wss' [L' N'] G']; subst; simpl; auto.
  rewrite redw_length by auto. f_equal. auto.
Qed.

(** Layers [a,b) of the reduced vectors, from the shape of the stop indices. *)
Lemma setEnergyBins_ok ns a b : (a < b)%nat -> (b <= length ns)%nat -> Forall (fun n => (0 < n)%nat) ns ->
  exists fb lb, setEnergyBins (cumul 0 ns) a b = Ok (fb, lb) /\ lb <> 0%nat /\
    fb = list_sum (firstn a ns) /\ lb = list_sum (firstn b ns).
Proof.
  intros H1 H2 F. unfold setEnergyBins.
  assert (Ea : match a with O => Ok 0%nat | S f => vec_get (cumul 0 ns) f end = Ok (list_sum (firstn a ns))).
  { destruct a as [|f]; auto. unfold vec_get. rewrite cumul_nth by lia. reflexivity. }
  rewrite Ea. cbn [obind]. destruct b as [|l]; [lia|].
  unfold vec_get. rewrite cumul_nth by lia. cbn [obind].
  eexists _, _. split; [reflexivity|]. split; [|split; reflexivity].
  destruct ns as [|n ns]; [simpl in *; lia|]. inversion F; subst. simpl. lia.
Qed.

Lemma bin_range_layers {A} (xss : list (list A)) a b fb lb : (a < b)%nat -> lb <> 0%nat ->
  fb = list_sum (firstn a (map (@length A) xss)) -> lb = list_sum (firstn b (map (@length A) xss)) ->
  bin_range (concat xss) fb lb = layers xss a b.
Proof.
  intros H N -> ->. unfold bin_range. rewrite (proj2 (Nat.eqb_neq _ _) N).
  apply skipn_firstn_layers. lia.
Qed.

Lemma layers_map {A B} (f : list A -> list B) xss a b :
  layers (map f xss) a b = concat (map f (firstn (b - a) (skipn a xss))).
Proof.
  unfold layers. rewrite skipn_map, firstn_map. reflexivity.
Qed.
Lemma skipn_map2 {A B C} (f : A -> B -> C) n : forall l1 l2, skipn n (map2 f l1 l2) = map2 f (skipn n l1) (skipn n l2).
Proof.
  induction n as [|n IH]; intros [|x l1] [|y l2]; simpl; auto. destruct (skipn n l1); auto.
Qed.
Lemma firstn_map2 {A B C} (f : A -> B -> C) n : forall l1 l2, firstn n (map2 f l1 l2) = map2 f (firstn n l1) (firstn n l2).
Proof. induction n as [|n IH]; intros [|x l1] [|y l2]; simpl; auto. now rewrite IH. Qed.
Lemma Forall2_skipn {A B} (P : A -> B -> Prop) n : forall l1 l2, Forall2 P l1 l2 -> Forall2 P (skipn n l1) (skipn n l2).
Proof. induction n as [|n IH]; intros l1 l2 H; simpl; auto. destruct H; auto. Qed.
Lemma Forall2_firstn {A B} (P : A -> B -> Prop) n : forall l1 l2, Forall2 P l1 l2 -> Forall2 P (firstn n l1) (firstn n l2).
Proof. induction n as [|n IH]; intros l1 l2 H; simpl; auto. destruct H; auto. Qed.
Lemma Forall_skipn {A} (P : A -> Prop) n : forall l, Forall P l -> Forall P (skipn n l).
Proof. induction n as [|n IH]; intros l H; simpl; auto. destruct H; auto. Qed.
Lemma Forall_firstn {A} (P : A -> Prop) n : forall l, Forall P l -> Forall P (firstn n l).
Proof. induction n as [|n IH]; intros l H; simpl; auto. destruct H; auto. Qed.
Lemma skipn_redws n : forall dss mss wss,
  skipn n (redws_l dss mss wss) = redws_l (skipn n dss) (skipn n mss) (skipn n wss).
Proof.
  induction n as [|n IH]; intros [|x l1] [|y l2] [|w l3]; simpl; auto;
  try (now destruct (skipn n l1)); try (now destruct (skipn n l1); try destruct (skipn n l2)).
Qed.
Lemma firstn_redws n : forall dss mss wss,
  firstn n (redws_l dss mss wss) = redws_l (firstn n dss) (firstn n mss) (firstn n wss).
Proof. induction n as [|n IH]; intros [|x l1] [|y l2] [|w l3]; simpl; auto. now rewrite IH. Qed.

Lemma shape2_length dss mss : shape2 dss mss -> length (concat dss) = length (concat mss).
Proof. induction 1 as [|ds ms ? ? [L N] _ IH]; simpl; auto. rewrite !app_length. lia. Qed.

Lemma layers_equiv dss : forall mss, shape2 dss mss -> Forall (Forall (Rle 0)) mss ->
  logLikePoisson (concat (map redd dss)) (concat (map2 (fun ds ms => redm ds ms 0) dss mss)) =
  logLikePoisson (concat dss) (concat mss).
Proof.
  intros mss F P.
  assert (L : length (concat (map redd dss)) = length (concat (map2 (fun ds ms => redm ds ms 0) dss mss))).
  { clear P. induction F as [|ds ms ? ? [L N] _ IH]; simpl; auto. rewrite !app_length, redm_length by auto. lia. }
  symmetry. apply ll_ext; auto.
  - apply shape2_length; auto.
  - clear L. induction F as [|ds ms dss mss [L N] F IH]; simpl; [tauto|]. inversion P; subst.
    rewrite !bad_app, IH, red_bad; auto; try tauto; try lra. symmetry. now apply redm_length.
  - clear L. induction F as [|ds ms dss mss [L N] F IH]; simpl; auto. inversion P; subst. intros v Pv.
    destruct (poisson_total ds ms L) as [v1 P1].
    destruct (poisson_total (concat dss) (concat mss) (shape2_length _ _ F)) as [v2 P2].
    rewrite (poisson_fun _ _ _ _ Pv (poisson_app _ _ _ _ _ _ P1 P2)).
    apply poisson_app; auto. rewrite <- (Rminus_0_r v1). now apply red_poisson.
Qed.

Lemma layers_equivW dss : forall mss wss, shape2 dss mss -> shape2 dss wss -> Forall (Forall (Rle 0)) mss ->
  Forall2 wbound dss wss ->
  logLikePoissonW (concat (map redd dss)) (concat (map2 (fun ds ms => redm ds ms 0) dss mss)) (concat (redws_l dss mss wss)) =
  logLikePoissonW (concat dss) (concat mss) (concat wss).
Proof.
  intros mss wss F G P W.
  assert (L : length (concat (map redd dss)) = length (concat (map2 (fun ds ms => redm ds ms 0) dss mss))).
  { clear P G W. induction F as [|ds ms ? ? [L N] _ IH]; simpl; auto. rewrite !app_length, redm_length by auto. lia. }
  assert (L' : length (concat (map redd dss)) = length (concat (redws_l dss mss wss))).
  { clear P W L. revert wss G. induction F as [|ds ms ? ? [L N] _ IH]; intros wss G; inversion G as [|? ? ? ? [L' N']]; subst; simpl; auto.
    rewrite !app_length, redw_length by auto. erewrite IH by eassumption. lia. }
  symmetry. apply llw_ext; auto; try now apply shape2_length.
  - clear L L'. revert wss G W. induction F as [|ds ms dss mss [L N] F IH]; intros wss G W;
      inversion G as [|? ? ? ? [L' N']]; subst; simpl; [tauto|]. inversion P; inversion W; subst.
    rewrite !badW_app; auto.
    + rewrite <- IH, redw_bad; auto; try tauto; try lra.
    + symmetry. now apply redm_length.
    + symmetry. now apply redw_length.
  - clear L L'. revert wss G W. induction F as [|ds ms dss mss [L N] F IH]; intros wss G W;
      inversion G as [|? ws ? wss' [L' N']]; subst; simpl; auto. inversion P; inversion W; subst. intros v Pv.
    destruct (poissonW_total ds ms ws L L') as [v1 P1].
    destruct (poissonW_total (concat dss) (concat mss) (concat wss')) as [v2 P2]; try now apply shape2_length.
    rewrite (poissonW_fun _ _ _ _ _ Pv (poissonW_app _ _ _ _ _ _ _ _ P1 P2)).
    apply poissonW_app; auto. rewrite <- (Rminus_0_r v1). apply redw_poisson; auto; lra.
Qed.

(** Everything about the reduced representation in one statement. *)
Lemma reduced_agrees dss mss wss a b : shape2 dss mss -> shape2 dss wss -> Forall (Forall (Rle 0)) mss ->
  Forall2 wbound dss wss -> (a < b)%nat -> (b <= length dss)%nat ->
  forall r, r = red_all (mk_red [] [] []) 0 dss ->
  exists mred wred fb lb,
    length (r_stops r) = length dss /\
    sparsifyModel (r_bins r) (concat mss) = Ok mred /\
    sparsifyWeights (r_bins r) (concat wss) (concat mss) = Ok wred /\
    setEnergyBins (r_stops r) a b = Ok (fb, lb) /\
    logLikePoisson (bin_range (r_data r) fb lb) (bin_range mred fb lb) =
      logLikePoisson (layers dss a b) (layers mss a b) /\
    logLikePoissonW (bin_range (r_data r) fb lb) (bin_range mred fb lb) (bin_range wred fb lb) =
      logLikePoissonW (layers dss a b) (layers mss a b) (layers wss a b).
Proof.
  intros F G P W H1 H2 r Hr. rewrite red_all_eq in Hr. simpl in Hr. subst r. simpl.
  destruct (setEnergyBins_ok (map (fun ds => length (redd ds)) dss) a b) as (fb & lb & E & N & Efb & Elb);
    auto; [now rewrite map_length| |].
  { apply Forall_forall. intros n Hn. apply in_map_iff in Hn. destruct Hn as (ds & <- & _).
    unfold redd. rewrite app_length. simpl. lia. }
  exists (concat (map2 (fun ds ms => redm ds ms 0) dss mss)), (redws dss mss wss), fb, lb.
  split. { rewrite cumul_length, map_length. reflexivity. }
  split. { unfold sparsifyModel. eapply sp_all; eauto. simpl. now rewrite app_nil_r. }
  split. { unfold sparsifyWeights. eapply spw_all; eauto; simpl; now rewrite app_nil_r. }
  split; [exact E|].
  assert (Rd : bin_range (concat (map redd dss)) fb lb = layers (map redd dss) a b).
  { apply bin_range_layers; auto; rewrite map_map; auto. }
  assert (Rm : bin_range (concat (map2 (fun ds ms => redm ds ms 0) dss mss)) fb lb =
               layers (map2 (fun ds ms => redm ds ms 0) dss mss) a b).
  { apply bin_range_layers; auto; rewrite map_length_redm; auto. }
  assert (Rw : bin_range (redws dss mss wss) fb lb = layers (redws_l dss mss wss) a b).
  { rewrite redws_concat. apply bin_range_layers; auto; rewrite map_length_redws; auto. }
  rewrite Rd, Rm, Rw, layers_map. unfold layers. rewrite skipn_map2, firstn_map2, skipn_redws, firstn_redws.
  split.
  - apply layers_equiv; [apply Forall2_firstn, Forall2_skipn; auto|apply Forall_firstn, Forall_skipn; auto].
  - apply layers_equivW; try (apply Forall2_firstn, Forall2_skipn; auto). apply Forall_firstn, Forall_skipn; auto.
Qed.

(** ** refactorModels *)
Lemma add_fixed_ok fixed tmpl s : length fixed = length tmpl ->
  add_fixed fixed tmpl s = Ok (map2 (fun x y => 1 * x + s * y) fixed tmpl).
Proof.
  intros H. unfold add_fixed, vectorAdd.
  destruct (zip_call_ok (fun x y => 1 * x + s * y) (fun k => match k with O => fixed | _ => tmpl end) 0 1 0 H eq_refl)
    as (e' & E & R & _).
  rewrite E. simpl. now rewrite R.
Qed.
Lemma add_fixed_throw fixed tmpl s : length fixed <> length tmpl -> add_fixed fixed tmpl s = Throw.
Proof.
  intros H. unfold add_fixed, vectorAdd. rewrite zip_call_throw by (simpl; auto). reflexivity.
Qed.
Lemma nth_map2 (f : R -> R -> R) : forall l1 l2 b, length l1 = length l2 -> f 0 0 = 0 ->
  nth b (map2 f l1 l2) 0 = f (nth b l1 0) (nth b l2 0).
Proof.
  induction l1 as [|x l1 IH]; intros [|y l2] [|b] H E; simpl in *; try discriminate; auto.
Qed.

Definition frozen_ok (n : nat) (free : list bool) (ts : list (list R)) : Prop :=
  Forall2 (fun f t => f = false -> length t = n) free ts.

Lemma total_model_app fixed b : forall t1 s1 t2 s2, length t1 = length s1 ->
  total_model fixed (t1 ++ t2) (s1 ++ s2) b = total_model fixed t1 s1 b - nth b fixed 0 + total_model fixed t2 s2 b.
Proof.
  induction t1 as [|t t1 IH]; intros [|s s1] t2 s2 H; simpl in *; try discriminate; [lra|].
  rewrite IH by lia. lra.
Qed.
Lemma total_model_fixed f g b : forall ts ss, total_model f ts ss b - nth b f 0 = total_model g ts ss b - nth b g 0.
Proof.
  induction ts as [|t ts IH]; intros [|s ss]; simpl; try lra. specialize (IH ss). lra.
Qed.

Lemma refactor_loop_spec n : forall ts fs pre ss i to fo so,
  length pre = i -> length ts = length fs -> (length ts <= length ss)%nat -> frozen_ok n fs ts -> length fo = n ->
  length to = length so ->
  exists to' fo' so', refactor_loop i ts fs (pre ++ ss) to fo so = Ok (to', fo', so') /\
    to' = to ++ flagged fs ts /\ so' = so ++ flagged fs ss /\ length fo' = n /\
    forall b, total_model fo' to' so' b = total_model fo to so b - nth b fo 0 + total_model fo ts ss b.
Proof.
  induction ts as [|t ts IH]; intros fs pre ss i to fo so Hp Hf Hs Hz Hn Hl.
  - destruct fs; [|discriminate]. simpl. exists to, fo, so. rewrite !app_nil_r.
    repeat split; auto. intros b. lra.
  - destruct fs as [|f fs]; [discriminate|]. destruct ss as [|s ss]; [simpl in Hs; lia|].
    inversion Hz as [|? ? ? ? Hft Hz']; subst. cbn [refactor_loop].
    assert (G : vec_get (pre ++ s :: ss) (length pre) = Ok s).
    { unfold vec_get. rewrite nth_error_app2, Nat.sub_diag by lia. reflexivity. }
    rewrite G. cbn [obind].
    replace (pre ++ s :: ss) with ((pre ++ [s]) ++ ss) by now rewrite <- app_assoc.
    simpl in Hf, Hs. destruct f; simpl flagged.
    + destruct (IH fs (pre ++ [s]) ss (S (length pre)) (to ++ [t]) fo (so ++ [s]))
        as (to' & fo' & so' & E & -> & -> & L & T); auto; try lia.
      { rewrite app_length; simpl; lia. } { rewrite !app_length; simpl; lia. }
      exists ((to ++ [t]) ++ flagged fs ts), fo', ((so ++ [s]) ++ flagged fs ss).
      rewrite E. split; auto. rewrite <- !app_assoc. repeat split; auto.
      intros b. rewrite <- !app_assoc in T. rewrite T. rewrite total_model_app by auto. simpl. lra.
    + rewrite add_fixed_ok by (rewrite Hft; auto). cbn [obind].
      destruct (IH fs (pre ++ [s]) ss (S (length pre)) to (map2 (fun x y => 1 * x + s * y) fo t) so)
        as (to' & fo' & so' & E & -> & -> & L & T); auto; try lia.
      { rewrite app_length; simpl; lia. } { rewrite map2_length; auto. rewrite Hft; auto. }
      exists (to ++ flagged fs ts), fo', (so ++ flagged fs ss). split; [exact E|]. repeat split; auto.
      intros b. rewrite T. simpl.
      pose proof (total_model_fixed (map2 (fun x y => 1 * x + s * y) fo t) fo b to so) as Q1.
      pose proof (total_model_fixed (map2 (fun x y => 1 * x + s * y) fo t) fo b ts ss) as Q2.
      rewrite nth_map2 in * by (try lra; rewrite Hft; auto). lra.
Qed.

Lemma flagged_length {A B} : forall fs (l : list A) (l' : list B), length fs = length l -> length fs = length l' ->
  length (flagged fs l) = length (flagged fs l').
Proof.
  induction fs as [|f fs IH]; intros [|x l] [|y l'] H H'; simpl in *; try discriminate; auto.
  destruct f; simpl; auto.
Qed.

Lemma refactor_ok ts fixed ss free test : length ts = length free -> length ss = length ts ->
  Forall2 (fun (f : bool) t => f = false -> length t = length fixed) free ts ->
  exists fo, refactorModels ts fixed ss free test =
      Ok (flagged free ts ++ match test with Some m => [m] | None => [] end, fo,
          flagged free ss ++ match test with Some _ => [0] | None => [] end) /\
    length fo = length fixed /\
    forall b, total_model fo (flagged free ts ++ match test with Some m => [m] | None => [] end)
                (flagged free ss ++ match test with Some _ => [0] | None => [] end) b = total_model fixed ts ss b.
Proof.
  intros L1 L2 Z. unfold refactorModels. rewrite (proj2 (Nat.eqb_eq _ _) L1). simpl.
  destruct (refactor_loop_spec (length fixed) ts free [] ss 0 [] fixed []) as (to & fo & so & E & -> & -> & L & T);
    auto; try lia.
  simpl in E. rewrite E. simpl. simpl in T. exists fo.
  assert (FL : length (flagged free ts) = length (flagged free ss)) by (apply flagged_length; lia).
  destruct test as [m|].
  - split; auto. split; auto. intros b. rewrite total_model_app by auto. simpl. rewrite T. lra.
  - rewrite !app_nil_r. split; auto. split; auto. intros b. rewrite T. lra.
Qed.

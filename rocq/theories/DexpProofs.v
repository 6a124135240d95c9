(** Proofs about the exposure of diffuse sources. *)
From Coq Require Import Reals Lra Psatz.
From Verif Require Import Base AccumModel AccumProofs EvtModel DexpSpec DexpModel.
From Verif Require MpsfSpec MpsfProofs PsfuProofs.
Local Open Scope R_scope.

(** ** Sums and loops *)

Lemma sum_ext n f g : (forall i, (i < n)%nat -> f i = g i) -> sum n f = sum n g.
Proof. induction n as [|n IH]; intros H; simpl; [reflexivity|]. rewrite IH, (H n) by (intros; try apply H; lia). reflexivity. Qed.

Lemma sum_lin n f g c : sum n (fun i => f i + c * g i) = sum n f + c * sum n g.
Proof. induction n as [|n IH]; simpl; [ring|]. rewrite IH. ring. Qed.

Lemma sum_nonneg n f : (forall i, (i < n)%nat -> 0 <= f i) -> 0 <= sum n f.
Proof. induction n as [|n IH]; intros H; simpl; [lra|]. pose proof (H n ltac:(lia)). pose proof (IH (fun i Hi => H i ltac:(lia))). lra. Qed.

Lemma mfold_add (f : R -> nat -> outcome R) (h : nat -> R) n acc :
  (forall a j, (j < n)%nat -> f a j = Ok (a + h j)) -> mfold f (seq 0 n) acc = Ok (acc + sum n h).
Proof.
  intros H. destruct (PsfuProofs.mfold_inv f (fun i a => a = acc + sum i h) 0 n acc) as (t & E & It).
  - simpl. lra.
  - intros i t Hi ->. exists (acc + sum i h + h i). split; [apply H; exact Hi|]. simpl. lra.
  - now rewrite E, It.
Qed.

(** ** The energy grid *)

Lemma grid_asc es : energy_grid es -> MpsfSpec.ascending es.
Proof.
  intros (_ & _ & H) i a b Ha Hb. pose proof (proj1 (nth_error_Some es (S i)) ltac:(congruence)) as L.
  pose proof (H i L) as K. rewrite (nth_error_nth _ _ 0 Ha), (nth_error_nth _ _ 0 Hb) in K. exact K.
Qed.

Lemma grid_lt es i j : energy_grid es -> (i < j)%nat -> (j < length es)%nat -> nth i es 0 < nth j es 0.
Proof. intros H. apply MpsfProofs.ascending_nth, grid_asc, H. Qed.

Lemma grid_le es i j : energy_grid es -> (i <= j)%nat -> (j < length es)%nat -> nth i es 0 <= nth j es 0.
Proof. intros H Hij Hj. destruct (Nat.eq_dec i j) as [->|]; [lra|]. left. apply grid_lt; auto; lia. Qed.

Lemma grid_pos es i : energy_grid es -> (i < length es)%nat -> 0 < nth i es 0.
Proof. intros H Hi. pose proof (grid_le es 0 i H ltac:(lia) Hi). destruct H as (_ & H & _). lra. Qed.

Lemma bracket_exists es e : energy_grid es -> exists i, bracket es e i.
Proof.
  intros H. pose proof H as (L & P & _). destruct (Rlt_or_le e (nth 0 es 0)) as [Hl|Hl].
  - exists 0%nat. split; [lia|]. split; [now right|]. left. pose proof (grid_lt es 0 1 H ltac:(lia) ltac:(lia)). lra.
  - destruct (MpsfProofs.find_interval es e (grid_asc es H) ltac:(intros ->; simpl in L; lia) Hl) as (k & Hk & A & B).
    destruct (Nat.eq_dec (S k) (length es)) as [Ek|Ek].
    + exists (k - 1)%nat. split; [lia|]. split; [left|right; lia].
      pose proof (grid_le es (k - 1) k H ltac:(lia) ltac:(lia)). lra.
    + exists k. split; [lia|]. split; [now left|]. left. apply B. lia.
Qed.

Lemma bracket_unique es e i j : energy_grid es -> bracket es e i -> bracket es e j -> i = j.
Proof.
  intros H (A1 & A2 & A3) (B1 & B2 & B3).
  assert (K : forall i j, (i < j)%nat -> (S j < length es)%nat -> (nth j es 0 <= e \/ j = 0%nat) -> (e < nth (S i) es 0 \/ S (S i) = length es) -> False).
  { intros a b Hab Hb [Hb2| ->] [Ha|Ha]; try lia. pose proof (grid_le es (S a) b H ltac:(lia) ltac:(lia)). lra. }
  destruct (Nat.lt_trichotomy i j) as [L|[L|L]]; [|exact L|]; exfalso; eauto.
Qed.

Lemma bracket_grid es i : energy_grid es -> (S i < length es)%nat -> bracket es (nth i es 0) i.
Proof. intros H Hi. split; [exact Hi|]. split; [left; lra|]. left. apply grid_lt; auto; lia. Qed.

Lemma bracket_last es : energy_grid es -> bracket es (nth (length es - 1) es 0) (length es - 2).
Proof.
  intros H. pose proof H as (L & _). split; [lia|]. split; [left|right; lia]. apply grid_le; auto; lia.
Qed.

Lemma back_ok' l : l <> [] -> back l = Ok (nth (length l - 1) l 0).
Proof. intros H. unfold back. destruct l as [|a l]; [congruence|]. apply (vec_get_ok (a :: l)). simpl; lia. Qed.

Lemma upper_plane_ok es e i : energy_grid es -> bracket es e i -> upper_plane es e = Ok (S i).
Proof.
  intros H (A & B & C). pose proof H as (L & _). unfold upper_plane. rewrite (vec_get_ok es 0 0) by lia. cbn [obind].
  destruct (Rltb_spec e (nth 0 es 0)) as [Hl|Hl].
  - f_equal. f_equal. destruct B as [B|B]; [|lia]. pose proof (grid_le es 0 i H ltac:(lia) ltac:(lia)). lra.
  - rewrite (back_ok' es) by (intros ->; simpl in L; lia). cbn [obind].
    destruct (Rleb_spec (nth (length es - 1) es 0) e) as [Hr|Hr].
    + f_equal. destruct C as [C|C]; [|lia]. pose proof (grid_le es (S i) (length es - 1) H ltac:(lia) ltac:(lia)). lra.
    + apply MpsfProofs.ub_at; [now apply grid_asc|lia| |].
      * destruct B as [B| ->]; [exact B|lra].
      * intros _. destruct C as [C|C]; [exact C|]. replace (S i) with (length es - 1)%nat by lia. lra.
Qed.

Section D.
Variable Dir : Type.
Variable skydir : R -> R -> Dir.

(** ** The exposure map *)

Definition whole (m : expmap Dir) (n : nat) : Prop :=
  length (em_ra _ m) = n /\ length (em_dec _ m) = n /\ length (em_solid _ m) = n /\
  table (length (em_energies _ m)) n (em_planes _ m).

Definition pixval (m : expmap Dir) (i j : nat) (e : R) : R :=
  ln (e / nth i (em_energies _ m) 0) / ln (nth (S i) (em_energies _ m) 0 / nth i (em_energies _ m) 0)
  * (entry (em_planes _ m) (S i) j - entry (em_planes _ m) i j) + entry (em_planes _ m) i j.

Lemma log_ok x : 0 < x -> log_ x = Ok (ln x).
Proof. intros H. unfold log_. destruct (Rltb_spec 0 x); [reflexivity|lra]. Qed.
Lemma div_ok x y : y <> 0 -> div_ x y = Ok (x / y).
Proof. intros H. unfold div_. destruct (Reqb_spec y 0); [lra|reflexivity]. Qed.

Lemma ln_div_pos a b : 0 < a -> 0 < b -> ln (a / b) = ln a - ln b.
Proof. intros Ha Hb. unfold Rdiv. rewrite ln_mult, ln_Rinv; [ring|exact Hb|exact Ha|now apply Rinv_0_lt_compat]. Qed.

Lemma pixel_ok m n i j e : whole m n -> energy_grid (em_energies _ m) -> 0 < e -> bracket (em_energies _ m) e i -> (j < n)%nat ->
  pixel_exposure Dir m (S i) j e = Ok (pixval m i j e).
Proof.
  intros (R1 & R2 & R3 & R4 & R5) H He (A & _ & _) Hj. unfold pixel_exposure.
  pose proof (grid_pos _ i H ltac:(lia)) as P0. pose proof (grid_pos _ (S i) H A) as P1. pose proof (grid_lt _ i (S i) H ltac:(lia) A) as P2.
  rewrite (vec_get_ok _ i 0) by lia. cbn [obind]. rewrite (vec_get_ok _ (S i) 0) by lia. cbn [obind].
  rewrite div_ok by lra. cbn [obind]. rewrite log_ok by (apply Rdiv_lt_0_compat; lra). cbn [obind].
  rewrite div_ok by lra. cbn [obind]. rewrite log_ok by (apply Rdiv_lt_0_compat; lra). cbn [obind].
  rewrite div_ok by (rewrite ln_div_pos by lra; pose proof (ln_increasing _ _ P0 P2); lra). cbn [obind].
  rewrite (vec_get_ok _ (S i) []) by lia. cbn [obind]. rewrite (vec_get_ok _ j 0) by (rewrite R5; lia). cbn [obind].
  rewrite (vec_get_ok _ i []) by lia. cbn [obind]. rewrite (vec_get_ok _ j 0) by (rewrite R5; lia). reflexivity.
Qed.

Lemma pixval_line m i j e : energy_grid (em_energies _ m) -> 0 < e -> (S i < length (em_energies _ m))%nat ->
  log_line (nth i (em_energies _ m) 0) (nth (S i) (em_energies _ m) 0) (entry (em_planes _ m) i j) (entry (em_planes _ m) (S i) j) e (pixval m i j e).
Proof.
  intros H He A. unfold log_line, pixval.
  pose proof (grid_pos _ i H ltac:(lia)) as P0. pose proof (grid_pos _ (S i) H A) as P1. pose proof (grid_lt _ i (S i) H ltac:(lia) A) as P2.
  rewrite !ln_div_pos by lra. pose proof (ln_increasing _ _ P0 P2). field. lra.
Qed.

Definition value_at (m : expmap Dir) (n : nat) (f : Dir -> R -> R) (i : nat) (e : R) : R :=
  sum n (fun j => pixval m i j e * f (skydir (nth j (em_ra _ m) 0) (nth j (em_dec _ m) 0)) e * nth j (em_solid _ m) 0).

Lemma integrate_one m n f i e acc : whole m n -> energy_grid (em_energies _ m) -> 0 < e -> bracket (em_energies _ m) e i ->
  (obind (upper_plane (em_energies _ m) e) (fun kk =>
    obind (mfold (fun src j =>
             obind (pixel_exposure Dir m kk j e) (fun expsr =>
             obind (vec_get (em_ra _ m) j) (fun ra => obind (vec_get (em_dec _ m) j) (fun dec =>
             obind (vec_get (em_solid _ m) j) (fun omega =>
             Ok (src + expsr * f (skydir ra dec) e * omega))))))
           (seq 0 (length (em_ra _ m))) 0) (fun src => Ok (acc ++ [src])))) = Ok (acc ++ [value_at m n f i e]).
Proof.
  intros W H He B. pose proof W as (R1 & R2 & R3 & _). rewrite (upper_plane_ok _ _ i H B). cbn [obind]. rewrite R1.
  rewrite (mfold_add _ (fun j => pixval m i j e * f (skydir (nth j (em_ra _ m) 0) (nth j (em_dec _ m) 0)) e * nth j (em_solid _ m) 0)).
  - cbn [obind]. rewrite Rplus_0_l. reflexivity.
  - intros a j Hj. rewrite (pixel_ok m n i j e W H He B Hj). cbn [obind].
    rewrite (vec_get_ok _ j 0) by lia. cbn [obind]. rewrite (vec_get_ok _ j 0) by lia. cbn [obind].
    rewrite (vec_get_ok _ j 0) by lia. reflexivity.
Qed.

Lemma integrate_ok m n f energies : whole m n -> energy_grid (em_energies _ m) -> (forall k, (k < length energies)%nat -> 0 < nth k energies 0) ->
  exists v, integrateSpatialDist Dir skydir m energies f = Ok v /\ length v = length energies /\
    forall k i, (k < length energies)%nat -> bracket (em_energies _ m) (nth k energies 0) i -> nth k v 0 = value_at m n f i (nth k energies 0).
Proof.
  intros W H HE. unfold integrateSpatialDist.
  assert (K : forall es acc, (forall k, (k < length es)%nat -> 0 < nth k es 0) -> exists v,
    mfold (fun exposure e =>
    obind (upper_plane (em_energies _ m) e) (fun kk =>
    obind (mfold (fun src j =>
             obind (pixel_exposure Dir m kk j e) (fun expsr =>
             obind (vec_get (em_ra _ m) j) (fun ra => obind (vec_get (em_dec _ m) j) (fun dec =>
             obind (vec_get (em_solid _ m) j) (fun omega =>
             Ok (src + expsr * f (skydir ra dec) e * omega))))))
           (seq 0 (length (em_ra _ m))) 0) (fun src =>
    Ok (exposure ++ [src])))) es acc = Ok (acc ++ v) /\ length v = length es /\
    forall k i, (k < length es)%nat -> bracket (em_energies _ m) (nth k es 0) i -> nth k v 0 = value_at m n f i (nth k es 0)).
  { induction es as [|e es IH]; intros acc HP.
    - exists []. rewrite app_nil_r. split; [reflexivity|]. split; [reflexivity|]. intros k i Hk. simpl in Hk. lia.
    - destruct (bracket_exists _ e H) as (i & B). cbn [mfold].
      rewrite (integrate_one m n f i e acc W H (HP 0%nat ltac:(simpl; lia)) B). cbn [obind].
      destruct (IH (acc ++ [value_at m n f i e])) as (v & E & L & G); [intros k Hk; apply (HP (S k)); simpl; lia|].
      exists (value_at m n f i e :: v). split; [rewrite E, <- app_assoc; reflexivity|]. split; [simpl; lia|].
      intros [|k] i' Hk B'; cbn [nth] in *; [|apply G; [simpl in Hk; lia|exact B']].
      now rewrite (bracket_unique _ _ i' i H B' B). }
  destruct (K energies [] HE) as (v & E & L & G). exists v. auto.
Qed.

Lemma pixval_grid m i j : energy_grid (em_energies _ m) -> (S i < length (em_energies _ m))%nat ->
  pixval m i j (nth i (em_energies _ m) 0) = entry (em_planes _ m) i j /\
  pixval m i j (nth (S i) (em_energies _ m) 0) = entry (em_planes _ m) (S i) j.
Proof.
  intros H A. unfold pixval.
  pose proof (grid_pos _ i H ltac:(lia)) as P0. pose proof (grid_pos _ (S i) H A) as P1. pose proof (grid_lt _ i (S i) H ltac:(lia) A) as P2.
  rewrite !ln_div_pos by lra. pose proof (ln_increasing _ _ P0 P2). split; field; lra.
Qed.

Lemma value_at_grid m n f i i' : energy_grid (em_energies _ m) -> (i < length (em_energies _ m))%nat ->
  bracket (em_energies _ m) (nth i (em_energies _ m) 0) i' ->
  value_at m n f i' (nth i (em_energies _ m) 0) =
  sum n (fun j => entry (em_planes _ m) i j * f (skydir (nth j (em_ra _ m) 0) (nth j (em_dec _ m) 0)) (nth i (em_energies _ m) 0) * nth j (em_solid _ m) 0).
Proof.
  intros H Hi B. unfold value_at. apply sum_ext. intros j Hj. f_equal. f_equal.
  destruct (Nat.eq_dec (S i) (length (em_energies _ m))) as [E|E].
  - assert (i' = (length (em_energies _ m) - 2)%nat) as ->.
    { apply (bracket_unique _ _ _ _ H B). replace i with (length (em_energies _ m) - 1)%nat by lia. now apply bracket_last. }
    pose proof H as (L & _). replace i with (S (length (em_energies _ m) - 2)) by lia. apply pixval_grid; [exact H|lia].
  - assert (i' = i) as ->. { apply (bracket_unique _ _ _ _ H B). apply bracket_grid; [exact H|lia]. }
    apply pixval_grid; [exact H|lia].
Qed.

Lemma pixval_nonneg m i j e : energy_grid (em_energies _ m) -> (S i < length (em_energies _ m))%nat ->
  nth i (em_energies _ m) 0 <= e <= nth (S i) (em_energies _ m) 0 ->
  0 <= entry (em_planes _ m) i j -> 0 <= entry (em_planes _ m) (S i) j -> 0 <= pixval m i j e.
Proof.
  intros H A [He1 He2] Y0 Y1. unfold pixval.
  pose proof (grid_pos _ i H ltac:(lia)) as P0. pose proof (grid_pos _ (S i) H A) as P1. pose proof (grid_lt _ i (S i) H ltac:(lia) A) as P2.
  rewrite !ln_div_pos by lra. pose proof (ln_increasing _ _ P0 P2) as Q.
  set (a := nth i (em_energies Dir m) 0) in *. set (b := nth (S i) (em_energies Dir m) 0) in *.
  assert (Qa : ln a <= ln e) by (destruct He1 as [K| ->]; [left; apply ln_increasing; assumption|lra]).
  assert (Qb : ln e <= ln b) by (destruct He2 as [K| ->]; [left; apply ln_increasing; lra|lra]).
  set (y0 := entry (em_planes Dir m) i j) in *. set (y1 := entry (em_planes Dir m) (S i) j) in *.
  replace ((ln e - ln a) / (ln b - ln a) * (y1 - y0) + y0) with (((ln e - ln a) * y1 + (ln b - ln e) * y0) / (ln b - ln a)) by (field; lra).
  apply Rmult_le_pos; [|left; apply Rinv_0_lt_compat; lra].
  apply Rplus_le_le_0_compat; apply Rmult_le_pos; lra.
Qed.

(** ** Quadrature over the pixels of the source's own map *)

Lemma power_ok x x1 x2 y1 y2 : 0 < x -> 0 < x1 -> x1 < x2 -> 0 < y1 -> 0 < y2 ->
  exists y, interpolatePowerLaw x x1 x2 y1 y2 = Ok y /\ power_law x1 x2 y1 y2 x y.
Proof.
  intros Hx H1 H2 Y1 Y2. unfold interpolatePowerLaw.
  destruct (Reqb_spec y1 0); [lra|]. cbn [andb].
  destruct (Rleb_spec x1 0); [lra|]. destruct (Rleb_spec x2 0); [lra|]. destruct (Rleb_spec y1 0); [lra|]. destruct (Rleb_spec y2 0); [lra|].
  cbn [orb]. pose proof (ln_increasing _ _ H1 H2).
  rewrite log_ok by (apply Rdiv_lt_0_compat; lra). cbn [obind]. rewrite log_ok by (apply Rdiv_lt_0_compat; lra). cbn [obind].
  rewrite div_ok by (rewrite ln_div_pos by lra; lra). cbn [obind].
  destruct (Rltb_spec 0 (x / x1)) as [K|K]; [|exfalso; apply K; apply Rdiv_lt_0_compat; lra].
  eexists. split; [reflexivity|]. unfold Rpower. split; [apply Rmult_lt_0_compat; [lra|apply exp_pos]|].
  unfold log_line. rewrite ln_mult by (try apply exp_pos; lra). rewrite ln_exp, !ln_div_pos by lra. field. lra.
Qed.

Lemma at_energy_index es ys e i : energy_grid es -> bracket es e i -> length ys = length es ->
  at_energy es ys e = interpolatePowerLaw e (nth i es 0) (nth (S i) es 0) (nth i ys 0) (nth (S i) ys 0).
Proof.
  intros H (A & B & C) HL. pose proof H as (L & _). unfold at_energy, front. rewrite (vec_get_ok es 0 0) by lia. cbn [obind].
  assert (G : (if Rleb e (nth 0 es 0) then Ok 0%nat else
     obind (back es) (fun hi =>
     if Rleb hi e then (if (length es <? 2)%nat then UB else Ok (length es - 2)%nat) else
     obind (std_upper_bound es e) (fun u => Ok (u - 1)%nat))) = Ok i).
  { destruct (Rleb_spec e (nth 0 es 0)) as [Hl|Hl].
    - f_equal. destruct B as [B|B]; [|lia]. destruct i as [|i]; [reflexivity|]. pose proof (grid_lt es 0 (S i) H ltac:(lia) ltac:(lia)). lra.
    - rewrite (back_ok' es) by (intros ->; simpl in L; lia). cbn [obind].
      destruct (Rleb_spec (nth (length es - 1) es 0) e) as [Hr|Hr].
      + destruct (Nat.ltb_spec (length es) 2); [lia|]. f_equal. destruct C as [C|C]; [|lia].
        pose proof (grid_le es (S i) (length es - 1) H ltac:(lia) ltac:(lia)). lra.
      + rewrite (MpsfProofs.ub_at es e i); [cbn [obind]; f_equal; lia|now apply grid_asc|lia| |].
        * destruct B as [B| ->]; [exact B|lra].
        * intros _. destruct C as [C|C]; [exact C|]. replace (S i) with (length es - 1)%nat by lia. lra. }
  rewrite G. cbn [obind]. rewrite (vec_get_ok es i 0) by lia. cbn [obind]. rewrite (vec_get_ok es (S i) 0) by lia. cbn [obind].
  rewrite (vec_get_ok ys i 0) by lia. cbn [obind]. rewrite (vec_get_ok ys (S i) 0) by lia. reflexivity.
Qed.

Lemma resample_ok es ys energies : energy_grid es -> length ys = length es ->
  (forall k, (k < length ys)%nat -> 0 < nth k ys 0) -> (forall k, (k < length energies)%nat -> 0 < nth k energies 0) ->
  exists v, resample es ys energies [] = (v, Ok tt) /\ length v = length energies /\
    forall k i, (k < length energies)%nat -> bracket es (nth k energies 0) i ->
      power_law (nth i es 0) (nth (S i) es 0) (nth i ys 0) (nth (S i) ys 0) (nth k energies 0) (nth k v 0).
Proof.
  intros H HL HY HE.
  assert (K : forall l acc, (forall k, (k < length l)%nat -> 0 < nth k l 0) ->
    exists v, resample es ys l acc = (acc ++ v, Ok tt) /\ length v = length l /\
    forall k i, (k < length l)%nat -> bracket es (nth k l 0) i ->
      power_law (nth i es 0) (nth (S i) es 0) (nth i ys 0) (nth (S i) ys 0) (nth k l 0) (nth k v 0)).
  { induction l as [|e l IH]; intros acc HP.
    - exists []. rewrite app_nil_r. split; [reflexivity|]. split; [reflexivity|]. intros k i Hk. simpl in Hk. lia.
    - destruct (bracket_exists _ e H) as (i & B). cbn [resample]. rewrite (at_energy_index es ys e i H B HL).
      pose proof B as (A & _).
      destruct (power_ok e (nth i es 0) (nth (S i) es 0) (nth i ys 0) (nth (S i) ys 0)) as (y & E & P).
      + apply (HP 0%nat). simpl; lia.
      + apply grid_pos; [exact H|lia].
      + apply grid_lt; [exact H|lia|lia].
      + apply HY; lia.
      + apply HY; lia.
      + rewrite E. destruct (IH (acc ++ [y])) as (v & E2 & L & G); [intros k Hk; apply (HP (S k)); simpl; lia|].
        exists (y :: v). split; [rewrite E2, <- app_assoc; reflexivity|]. split; [simpl; lia|].
        intros [|k] i' Hk B'; cbn [nth] in *; [|apply G; [simpl in Hk; lia|exact B']].
        now rewrite (bracket_unique _ _ i' i H B' B). }
  destruct (K energies [] HE) as (v & E & L & G). exists v. auto.
Qed.

Lemma resample_length es ys energies : forall acc v, resample es ys energies acc = (v, Ok tt) -> length v = (length acc + length energies)%nat.
Proof.
  induction energies as [|e l IH]; intros acc v; cbn [resample].
  - intros [= <-]. simpl. lia.
  - destruct (at_energy es ys e); [|discriminate..]. intros E. rewrite (IH _ _ E), app_length. simpl. lia.
Qed.

Lemma via_planes_eq m plane (y : nat -> R) energies :
  (forall k, (k < length (em_energies _ m))%nat -> plane k (nth k (em_energies _ m) 0) = Ok (y k)) ->
  via_planes Dir m plane energies = resample (em_energies _ m) (map y (seq 0 (length (em_energies _ m)))) energies [].
Proof.
  intros H. unfold via_planes. rewrite (MpsfProofs.mfold_push _ y); [reflexivity|].
  intros acc k Hk. apply in_seq in Hk. rewrite (vec_get_ok _ k 0) by lia. cbn [obind]. rewrite H by lia. reflexivity.
Qed.

Lemma via_planes_length m plane energies v : via_planes Dir m plane energies = (v, Ok tt) -> length v = length energies.
Proof.
  unfold via_planes. destruct (mfold _ _ _) as [ys| |]; [|discriminate..]. intros E. now rewrite (resample_length _ _ _ _ _ E).
Qed.

Lemma wcs_sum_ok w m k v (x : nat -> nat -> R) : table (wm_nx _ w) (wm_ny _ w) (wm_solid _ w) ->
  (forall i j, (i < wm_nx _ w)%nat -> (j < wm_ny _ w)%nat -> em_within _ m (wm_dir _ w (S i) (S j)) = true -> v i j (wm_dir _ w (S i) (S j)) = Ok (x i j)) ->
  wcs_sum Dir w m k v = Ok (sum (wm_nx _ w) (fun i => sum (wm_ny _ w) (fun j =>
     if em_within _ m (wm_dir _ w (S i) (S j)) then entry (wm_solid _ w) i j * x i j * em_at _ m (wm_dir _ w (S i) (S j)) k else 0))).
Proof.
  intros (L & Lr) HV. unfold wcs_sum.
  rewrite (mfold_add _ (fun i => sum (wm_ny _ w) (fun j =>
     if em_within _ m (wm_dir _ w (S i) (S j)) then entry (wm_solid _ w) i j * x i j * em_at _ m (wm_dir _ w (S i) (S j)) k else 0))).
  - now rewrite Rplus_0_l.
  - intros a i Hi. apply mfold_add. intros a' j Hj. destruct (em_within Dir m (wm_dir Dir w (S i) (S j))) eqn:EW; [|now rewrite Rplus_0_r].
    rewrite (vec_get_ok _ i []) by lia. cbn [obind]. rewrite (vec_get_ok _ j 0) by (rewrite Lr; lia). cbn [obind].
    rewrite HV by auto. reflexivity.
Qed.

(** ** Reading and writing *)

Lemma read_energies rows : readEnergyExtension rows [] = Ok rows.
Proof.
  unfold readEnergyExtension. set (n := length rows).
  destruct (PsfuProofs.mfold_inv (fun es r => obind (vec_get rows r) (fun e => vec_set es r e))
     (fun i es => length es = n /\ forall p, (p < i)%nat -> nth p es 0 = nth p rows 0) 0 n (vec_resize [] n 0)) as (t & E & L & G).
  - rewrite vec_resize_length. split; [reflexivity|]. intros; lia.
  - intros i t Hi (L & G). rewrite (vec_get_ok rows (0 + i) 0) by (unfold n in *; simpl; lia). cbn [obind].
    rewrite vec_set_ok by (simpl; lia). eexists. split; [reflexivity|]. rewrite upd_length. split; [exact L|].
    intros p Hp. destruct (Nat.eq_dec p i) as [->|].
    + rewrite nth_upd_eq by (simpl; lia). reflexivity.
    + rewrite nth_upd_neq by (simpl; lia). apply G. lia.
  - rewrite E. f_equal. apply (list_ext_nth _ _ 0); [exact L|]. intros p Hp. apply G. lia.
Qed.

Lemma read_row image start np : (start + np <= length image)%nat ->
  mfold (fun (s : nat * list R) (sa : nat) =>
                    obind (vec_at image (fst s)) (fun x =>
                    obind (vec_at (snd s) sa) (fun _ => Ok (S (fst s), upd (snd s) sa x))))
                  (seq 0 np) (start, repeat 0 np) = Ok ((start + np)%nat, map (fun p => nth (start + p) image 0) (seq 0 np)).
Proof.
  intros H.
  destruct (PsfuProofs.mfold_inv (fun (s : nat * list R) (sa : nat) =>
                    obind (vec_at image (fst s)) (fun x =>
                    obind (vec_at (snd s) sa) (fun _ => Ok (S (fst s), upd (snd s) sa x))))
     (fun i (s : nat * list R) => fst s = (start + i)%nat /\ length (snd s) = np /\ forall p, (p < i)%nat -> nth p (snd s) 0 = nth (start + p) image 0) 0 np (start, repeat 0 np)) as (t & E & F & L & G).
  - cbn [fst snd]. rewrite repeat_length. split; [lia|]. split; [reflexivity|]. intros; lia.
  - intros i [c row] Hi (F & L & G). cbn [fst snd] in *. subst c. rewrite (MpsfProofs.vec_at_ok image _ 0) by lia. cbn [obind].
    rewrite (MpsfProofs.vec_at_ok row _ 0) by (simpl; lia). cbn [obind]. eexists. split; [reflexivity|]. cbn [fst snd]. rewrite upd_length.
    split; [lia|]. split; [exact L|]. intros p Hp. simpl plus. destruct (Nat.eq_dec p i) as [->|].
    + rewrite nth_upd_eq by lia. reflexivity.
    + rewrite nth_upd_neq by lia. apply G. lia.
  - rewrite E. f_equal. destruct t as [c row]. cbn [fst snd] in *. f_equal; [exact F|].
    apply (list_ext_nth _ _ 0); [rewrite map_length, seq_length; exact L|]. intros p Hp.
    rewrite MpsfProofs.nth_mapseq by lia. apply G. lia.
Qed.

Lemma read_planes_loop image np ne : (ne * np <= length image)%nat ->
  mfold (fun (st : nat * list (list R)) (_ : nat) =>
           obind (mfold (fun (s : nat * list R) (sa : nat) =>
                    obind (vec_at image (fst s)) (fun x =>
                    obind (vec_at (snd s) sa) (fun _ => Ok (S (fst s), upd (snd s) sa x))))
                  (seq 0 np) (fst st, repeat 0 np)) (fun r =>
           Ok (fst r, snd st ++ [snd r])))
         (seq 0 ne) (0%nat, []) = Ok ((ne * np)%nat, map (fun k => map (fun p => nth (k * np + p) image 0) (seq 0 np)) (seq 0 ne)).
Proof.
  intros H.
  match goal with |- mfold ?f _ _ = _ => destruct (PsfuProofs.mfold_inv f
     (fun i (s : nat * list (list R)) => s = ((i * np)%nat, map (fun k => map (fun p => nth (k * np + p) image 0) (seq 0 np)) (seq 0 i))) 0 ne (0%nat, [])) as (t & E & It) end.
  - reflexivity.
  - intros i t Hi ->. cbn [fst snd]. rewrite read_row by nia. cbn [obind fst snd]. eexists. split; [reflexivity|].
    rewrite seq_S, map_app. cbn [map plus]. f_equal. lia.
  - now rewrite E, It.
Qed.

Lemma read_row_short image start np : (start <= length image)%nat -> (length image < start + np)%nat ->
  mfold (fun (s : nat * list R) (sa : nat) =>
                    obind (vec_at image (fst s)) (fun x =>
                    obind (vec_at (snd s) sa) (fun _ => Ok (S (fst s), upd (snd s) sa x))))
                  (seq 0 np) (start, repeat 0 np) = Throw.
Proof.
  intros H1 H2. set (a := (length image - start)%nat).
  assert (K : forall b s row, (s + b = length image)%nat -> forall c z, (c + length (seq c z) <= length row)%nat -> (b < z)%nat ->
    mfold (fun (s : nat * list R) (sa : nat) =>
                    obind (vec_at image (fst s)) (fun x =>
                    obind (vec_at (snd s) sa) (fun _ => Ok (S (fst s), upd (snd s) sa x))))
                  (seq c z) (s, row) = Throw).
  { induction b as [|b IH]; intros s row Hs c z Hc Hz; rewrite seq_length in Hc; (destruct z as [|z]; [lia|]); cbn [seq mfold fst snd].
    - unfold vec_at at 1. rewrite (proj2 (nth_error_None image s)) by lia. reflexivity.
    - rewrite (MpsfProofs.vec_at_ok image s 0) by lia. cbn [obind]. rewrite (MpsfProofs.vec_at_ok row c 0) by lia. cbn [obind fst snd].
      apply IH; [lia| |lia]. rewrite seq_length, upd_length. lia. }
  apply (K a); [unfold a; lia| |unfold a; lia]. rewrite seq_length, repeat_length. lia.
Qed.

End D.

(** Proofs about filling, integrating and rebinning a sky map. *)
From Coq Require Import Reals List Lia Lra ZArith.
From Verif Require Import Base AccumModel AccumProofs SmapNpred WrebModel WrebSpec.
Import ListNotations.
Local Open Scope R_scope.
Local Open Scope list_scope.

(** ** Sums *)

Lemma sumn_Rsum f n : sumn f n = Rsum (map f (seq 0 n)).
Proof. reflexivity. Qed.

Lemma sumn_0 f : sumn f 0 = 0.
Proof. reflexivity. Qed.

Lemma sumn_S f n : sumn f (S n) = sumn f n + f n.
Proof. rewrite !sumn_Rsum. apply Rsum_snoc. Qed.

Lemma sumn_ext f g n : (forall i, (i < n)%nat -> f i = g i) -> sumn f n = sumn g n.
Proof. intros H. rewrite !sumn_Rsum. apply Rsum_ext. intros i Hi. apply in_seq in Hi. apply H. lia. Qed.

Lemma sumn_zero n : sumn (fun _ => 0) n = 0.
Proof. rewrite sumn_Rsum. apply Rsum_zero. Qed.

Lemma sumn_plus f g n : sumn (fun i => f i + g i) n = sumn f n + sumn g n.
Proof. rewrite !sumn_Rsum. apply Rsum_plus. Qed.

Lemma sumn_scal c f n : sumn (fun i => c * f i) n = c * sumn f n.
Proof. rewrite !sumn_Rsum. apply Rsum_scal. Qed.

Lemma sumn_swap (f : nat -> nat -> R) n m : sumn (fun i => sumn (fun j => f i j) m) n = sumn (fun j => sumn (fun i => f i j) n) m.
Proof. unfold sumn. exact (Rsum_swap f (seq 0 n) (seq 0 m)). Qed.

Lemma sumn_le f g n : (forall i, (i < n)%nat -> f i <= g i) -> sumn f n <= sumn g n.
Proof.
  induction n as [|n IH]; intros H; [rewrite !sumn_0; lra|]. rewrite !sumn_S. pose proof (IH ltac:(intros; apply H; lia)). pose proof (H n ltac:(lia)). lra.
Qed.

Lemma sum2_ext g h n1 n2 : (forall i j, (i < n1)%nat -> (j < n2)%nat -> g i j = h i j) -> sum2 g n1 n2 = sum2 h n1 n2.
Proof. intros H. unfold sum2. apply sumn_ext. intros i Hi. apply sumn_ext. intros j Hj. now apply H. Qed.

Lemma sum2_le g h n1 n2 : (forall i j, (i < n1)%nat -> (j < n2)%nat -> g i j <= h i j) -> sum2 g n1 n2 <= sum2 h n1 n2.
Proof. intros H. unfold sum2. apply sumn_le. intros i Hi. apply sumn_le. intros j Hj. now apply H. Qed.

Lemma sum2_scal c g n1 n2 : sum2 (fun i j => c * g i j) n1 n2 = c * sum2 g n1 n2.
Proof. unfold sum2. rewrite <- sumn_scal. apply sumn_ext. intros i _. apply sumn_scal. Qed.

Lemma sum2_zero n1 n2 : sum2 (fun _ _ => 0) n1 n2 = 0.
Proof. unfold sum2. transitivity (sumn (fun _ => 0) n1); [|apply sumn_zero]. apply sumn_ext. intros i _. apply sumn_zero. Qed.

(** A sum with one term. *)
Lemma sumn_pick x a n : (a < n)%nat -> sumn (fun i => if (a =? i)%nat then x else 0) n = x.
Proof.
  induction n as [|n IH]; intros H; [lia|]. rewrite sumn_S. destruct (Nat.eqb_spec a n) as [->|N].
  - rewrite (sumn_ext _ (fun _ => 0)); [rewrite sumn_zero; ring|]. intros i Hi. destruct (Nat.eqb_spec n i); [lia|reflexivity].
  - rewrite IH by lia. ring.
Qed.

(** Blocks cover the map. *)
Lemma sum2_blocks f n1 n2 m1 m2 g : (forall i, (i < n1)%nat -> (i / f < m1)%nat) -> (forall j, (j < n2)%nat -> (j / f < m2)%nat) ->
  sum2 (fun a b => block_sum f n1 n2 g a b) m1 m2 = sum2 g n1 n2.
Proof.
  intros H1 H2. unfold block_sum, sum2.
  transitivity (sumn (fun a => sumn (fun i => sumn (fun b => sumn (fun j => if ((i / f =? a) && (j / f =? b))%nat%bool then g i j else 0) n2) m2) n1) m1).
  { apply sumn_ext. intros a _. apply (sumn_swap (fun b i => sumn (fun j => if ((i / f =? a) && (j / f =? b))%nat%bool then g i j else 0) n2)). }
  rewrite (sumn_swap (fun a i => sumn (fun b => sumn (fun j => if ((i / f =? a) && (j / f =? b))%nat%bool then g i j else 0) n2) m2)).
  apply sumn_ext. intros i Hi.
  transitivity (sumn (fun a => if (i / f =? a)%nat then sumn (fun j => g i j) n2 else 0) m1).
  - apply sumn_ext. intros a _. destruct (Nat.eqb_spec (i / f) a); cbn [andb].
    + rewrite (sumn_swap (fun b j => if (j / f =? b)%nat then g i j else 0)). apply sumn_ext. intros j Hj. apply sumn_pick. now apply H2.
    + transitivity (sumn (fun _ => 0) m2); [|apply sumn_zero]. apply sumn_ext. intros b _. apply sumn_zero.
  - apply sumn_pick. now apply H1.
Qed.

(** ** Planes *)

Lemma is_plane_ext t n1 n2 P Q : is_plane t n1 n2 P -> (forall j i, (j < n2)%nat -> (i < n1)%nat -> P j i = Q j i) -> is_plane t n1 n2 Q.
Proof.
  intros (L & H) E. split; [exact L|]. intros j Hj. destruct (H j Hj) as (row & A & B & C). exists row. split; [exact A|]. split; [exact B|]. intros i Hi. rewrite C by exact Hi. now rewrite E.
Qed.

Lemma get2_ok t n1 n2 P a b : is_plane t n1 n2 P -> (a < n2)%nat -> (b < n1)%nat -> get2 t a b = Ok (P a b).
Proof. intros (L & H) Ha Hb. destruct (H a Ha) as (row & A & B & C). unfold get2, vec_get. rewrite A. cbn [obind]. now rewrite C. Qed.

Lemma set2 t n1 n2 P a b row x : is_plane t n1 n2 P -> (a < n2)%nat -> (b < n1)%nat -> nth_error t a = Some row ->
  is_plane (upd t a (upd row b x)) n1 n2 (fun j i => if ((j =? a) && (i =? b))%nat%bool then x else P j i).
Proof.
  intros (L & H) Ha Hb Hr. split; [now rewrite upd_length|]. intros j Hj. destruct (Nat.eqb_spec j a) as [->|N].
  - destruct (H a Ha) as (row' & A & B & C). rewrite Hr in A. injection A as <-. exists (upd row b x). split; [apply nth_error_upd_eq; lia|]. split; [now rewrite upd_length|].
    intros i Hi. cbn [andb]. destruct (Nat.eqb_spec i b) as [->|N]; [apply nth_error_upd_eq; lia|]. rewrite nth_error_upd_neq by lia. now apply C.
  - destruct (H j Hj) as (row' & A & B & C). exists row'. split; [rewrite nth_error_upd_neq by lia; exact A|]. split; [exact B|]. intros i Hi. cbn [andb]. now apply C.
Qed.

Lemma add2_ok t n1 n2 P a b x : is_plane t n1 n2 P -> (a < n2)%nat -> (b < n1)%nat ->
  exists t', add2 t a b x = Ok t' /\ is_plane t' n1 n2 (fun j i => if ((j =? a) && (i =? b))%nat%bool then P j i + x else P j i).
Proof.
  intros HP Ha Hb. pose proof HP as (L & H). destruct (H a Ha) as (row & A & B & C). unfold add2, vec_get. rewrite A. cbn [obind]. rewrite C by exact Hb. cbn [obind].
  unfold vec_set. rewrite (proj2 (Nat.ltb_lt b (length row))) by lia. cbn [obind]. rewrite (proj2 (Nat.ltb_lt a (length t))) by lia. eexists. split; [reflexivity|].
  eapply is_plane_ext; [exact (set2 _ _ _ _ _ _ _ _ HP Ha Hb A)|]. intros j i Hj Hi. cbn beta. destruct (Nat.eqb_spec j a) as [->|N]; [|reflexivity]. destruct (Nat.eqb_spec i b) as [->|N]; reflexivity.
Qed.

Lemma div2_ok t n1 n2 P a b x : is_plane t n1 n2 P -> (a < n2)%nat -> (b < n1)%nat -> x <> 0 ->
  exists t', div2 t a b x = Ok t' /\ is_plane t' n1 n2 (fun j i => if ((j =? a) && (i =? b))%nat%bool then P j i / x else P j i).
Proof.
  intros HP Ha Hb Hx. pose proof HP as (L & H). destruct (H a Ha) as (row & A & B & C). unfold div2, vec_get. rewrite A. cbn [obind]. rewrite C by exact Hb. cbn [obind].
  destruct (Reqb_spec x 0); [contradiction|].
  unfold vec_set. rewrite (proj2 (Nat.ltb_lt b (length row))) by lia. cbn [obind]. rewrite (proj2 (Nat.ltb_lt a (length t))) by lia. eexists. split; [reflexivity|].
  eapply is_plane_ext; [exact (set2 _ _ _ _ _ _ _ _ HP Ha Hb A)|]. intros j i Hj Hi. cbn beta. destruct (Nat.eqb_spec j a) as [->|N]; [|reflexivity]. destruct (Nat.eqb_spec i b) as [->|N]; reflexivity.
Qed.

Lemma zeros_plane n1 n2 : is_plane (zeros n1 n2) n1 n2 (fun _ _ => 0).
Proof.
  split; [apply repeat_length|]. intros j Hj. exists (repeat 0 n1). split; [apply nth_error_repeat; exact Hj|]. split; [apply repeat_length|]. intros i Hi. now apply nth_error_repeat.
Qed.

Lemma mfold_seq_S {S} (f : S -> nat -> outcome S) n s s' : mfold f (seq 0 n) s = Ok s' -> mfold f (seq 0 (Datatypes.S n)) s = f s' n.
Proof. intros H. rewrite seq_S, mfold_app, H. cbn [obind mfold]. rewrite Nat.add_0_l. destruct (f s' n); reflexivity. Qed.

(** Every pixel is added to its block. *)
Lemma gather_ok n1 n2 f g G m1 m2 t P : is_plane t m1 m2 P -> (forall i, (i < n1)%nat -> (i / f < m1)%nat) -> (forall j, (j < n2)%nat -> (j / f < m2)%nat) ->
  (forall i j, (i < n1)%nat -> (j < n2)%nat -> g i j = Ok (G i j)) ->
  exists t', gather n1 n2 f g t = Ok t' /\ is_plane t' m1 m2 (fun b a => P b a + block_sum f n1 n2 G a b).
Proof.
  intros HP H1 H2 HG. unfold gather.
  assert (IN : forall i m t P, (i < n1)%nat -> (m <= n2)%nat -> is_plane t m1 m2 P ->
    exists t', mfold (fun t j => obind (g i j) (fun x => add2 t (j / f) (i / f) x)) (seq 0 m) t = Ok t' /\
      is_plane t' m1 m2 (fun b a => P b a + sumn (fun j => if ((i / f =? a) && (j / f =? b))%nat%bool then G i j else 0) m)).
  { intros i m t0 P0 Hi. induction m as [|m IH]; intros Hm HP0.
    - exists t0. split; [reflexivity|]. eapply is_plane_ext; [exact HP0|]. intros b a _ _. rewrite sumn_0. ring.
    - destruct (IH ltac:(lia) HP0) as (t1 & E1 & P1). rewrite (mfold_seq_S _ _ _ _ E1). rewrite HG by lia. cbn [obind].
      destruct (add2_ok t1 m1 m2 _ (m / f) (i / f) (G i m) P1) as (t2 & E2 & P2); [apply H2; lia|now apply H1|]. exists t2. split; [exact E2|].
      eapply is_plane_ext; [exact P2|]. intros b a _ _. cbn beta. rewrite sumn_S. rewrite (Nat.eqb_sym b), (Nat.eqb_sym a). rewrite Bool.andb_comm. destruct ((i / f =? a) && (m / f =? b))%nat%bool; ring. }
  assert (OUT : forall n, (n <= n1)%nat -> exists t', mfold (fun t i => mfold (fun t j => obind (g i j) (fun x => add2 t (j / f) (i / f) x)) (seq 0 n2) t) (seq 0 n) t = Ok t' /\
    is_plane t' m1 m2 (fun b a => P b a + sumn (fun i => sumn (fun j => if ((i / f =? a) && (j / f =? b))%nat%bool then G i j else 0) n2) n)).
  { induction n as [|n IH]; intros Hn.
    - exists t. split; [reflexivity|]. eapply is_plane_ext; [exact HP|]. intros b a _ _. rewrite sumn_0. ring.
    - destruct (IH ltac:(lia)) as (t1 & E1 & P1). rewrite (mfold_seq_S _ _ _ _ E1). destruct (IN n n2 t1 _ ltac:(lia) ltac:(lia) P1) as (t2 & E2 & P2). exists t2. split; [exact E2|].
      eapply is_plane_ext; [exact P2|]. intros b a _ _. cbn beta. rewrite sumn_S. ring. }
  exact (OUT n1 ltac:(lia)).
Qed.

(** Every block is divided. *)
Lemma divide_ok m1 m2 t P g G : is_plane t m1 m2 P -> (forall a b, (a < m1)%nat -> (b < m2)%nat -> g b a = Ok (G b a) /\ G b a <> 0) ->
  exists t', mfold (fun t a => mfold (fun t b => obind (g b a) (fun s => div2 t b a s)) (seq 0 m2) t) (seq 0 m1) t = Ok t' /\
    is_plane t' m1 m2 (fun b a => P b a / G b a).
Proof.
  intros HP HG.
  assert (IN : forall a m t P, (a < m1)%nat -> (m <= m2)%nat -> is_plane t m1 m2 P ->
    exists t', mfold (fun t b => obind (g b a) (fun s => div2 t b a s)) (seq 0 m) t = Ok t' /\
      is_plane t' m1 m2 (fun b a' => if ((b <? m) && (a' =? a))%nat%bool then P b a' / G b a' else P b a')).
  { intros a m t0 P0 Ha. induction m as [|m IH]; intros Hm HP0.
    - exists t0. split; [reflexivity|]. eapply is_plane_ext; [exact HP0|]. intros b a' _ _. destruct (Nat.ltb_spec b 0); [lia|reflexivity].
    - destruct (IH ltac:(lia) HP0) as (t1 & E1 & P1). rewrite (mfold_seq_S _ _ _ _ E1). destruct (HG a m Ha ltac:(lia)) as (EG & NZ). rewrite EG. cbn [obind].
      destruct (div2_ok t1 m1 m2 _ m a (G m a) P1 ltac:(lia) Ha NZ) as (t2 & E2 & P2). exists t2. split; [exact E2|].
      eapply is_plane_ext; [exact P2|]. intros b a' _ _. cbn beta. destruct (Nat.eqb_spec b m) as [->|Nb]; destruct (Nat.eqb_spec a' a) as [->|Na]; cbn [andb].
      + destruct (Nat.ltb_spec m m); [lia|]. destruct (Nat.ltb_spec m (S m)); [|lia]. cbn [andb]. reflexivity.
      + rewrite !Bool.andb_false_r. reflexivity.
      + rewrite !Bool.andb_true_r. destruct (Nat.ltb_spec b m); destruct (Nat.ltb_spec b (S m)); try lia; reflexivity.
      + rewrite !Bool.andb_false_r. reflexivity. }
  assert (OUT : forall n, (n <= m1)%nat -> exists t', mfold (fun t a => mfold (fun t b => obind (g b a) (fun s => div2 t b a s)) (seq 0 m2) t) (seq 0 n) t = Ok t' /\
    is_plane t' m1 m2 (fun b a' => if (a' <? n)%nat then P b a' / G b a' else P b a')).
  { induction n as [|n IH]; intros Hn.
    - exists t. split; [reflexivity|]. eapply is_plane_ext; [exact HP|]. intros b a' _ _. destruct (Nat.ltb_spec a' 0); [lia|reflexivity].
    - destruct (IH ltac:(lia)) as (t1 & E1 & P1). rewrite (mfold_seq_S _ _ _ _ E1). destruct (IN n m2 t1 _ ltac:(lia) ltac:(lia) P1) as (t2 & E2 & P2). exists t2. split; [exact E2|].
      eapply is_plane_ext; [exact P2|]. intros b a' Hb _. cbn beta. destruct (Nat.ltb_spec b m2); [|lia]. cbn [andb]. destruct (Nat.eqb_spec a' n) as [->|N].
      + destruct (Nat.ltb_spec n n); [lia|]. destruct (Nat.ltb_spec n (S n)); [reflexivity|lia].
      + destruct (Nat.ltb_spec a' n); destruct (Nat.ltb_spec a' (S n)); try lia; reflexivity. }
  destruct (OUT m1 ltac:(lia)) as (t' & E & P'). exists t'. split; [exact E|]. eapply is_plane_ext; [exact P'|]. intros b a _ Ha. cbn beta. destruct (Nat.ltb_spec a m1); [reflexivity|lia].
Qed.

(** Blocks that never were: a zero divisor. *)
Lemma divide_fails m1 m2 t P g G a0 b0 : is_plane t m1 m2 P -> (forall a b, (a < m1)%nat -> (b < m2)%nat -> g b a = Ok (G b a)) -> (a0 < m1)%nat -> (b0 < m2)%nat -> G b0 a0 = 0 ->
  mfold (fun t a => mfold (fun t b => obind (g b a) (fun s => div2 t b a s)) (seq 0 m2) t) (seq 0 m1) t = UB.
Proof.
  intros HP HG Ha Hb HZ.
  assert (STEP : forall a b t P, (a < m1)%nat -> (b < m2)%nat -> is_plane t m1 m2 P ->
    (exists t' P', obind (g b a) (fun s => div2 t b a s) = Ok t' /\ is_plane t' m1 m2 P' /\ G b a <> 0) \/ (obind (g b a) (fun s => div2 t b a s) = UB)).
  { intros a b t0 P0 A0 B0 HP0. rewrite HG by assumption. cbn [obind]. destruct (Req_dec (G b a) 0) as [Z|Z].
    - right. unfold div2. destruct HP0 as (L & H). destruct (H b B0) as (row & A & B & C). unfold vec_get. rewrite A. cbn [obind]. rewrite C by assumption. cbn [obind]. destruct (Reqb_spec (G b a) 0); [reflexivity|contradiction].
    - left. destruct (div2_ok t0 m1 m2 P0 b a (G b a) HP0 B0 A0 Z) as (t' & E & Q). eexists. eexists. split; [exact E|]. split; [exact Q|exact Z]. }
  assert (IN : forall a l t P, (a < m1)%nat -> (forall b, In b l -> (b < m2)%nat) -> is_plane t m1 m2 P ->
    (exists t' P', mfold (fun t b => obind (g b a) (fun s => div2 t b a s)) l t = Ok t' /\ is_plane t' m1 m2 P' /\ forall b, In b l -> G b a <> 0) \/
    mfold (fun t b => obind (g b a) (fun s => div2 t b a s)) l t = UB).
  { intros a l. induction l as [|b l IH]; intros t0 P0 A0 HL HP0; [left; exists t0, P0; split; [reflexivity|split; [exact HP0|intros b []]]|].
    cbn [mfold]. destruct (STEP a b t0 P0 A0 (HL b (or_introl eq_refl)) HP0) as [(t1 & P1 & E1 & Q1 & N1)|E1]; [|right; now rewrite E1]. rewrite E1. cbn [obind].
    destruct (IH t1 P1 A0 (fun b' Hb' => HL b' (or_intror Hb')) Q1) as [(t2 & P2 & E2 & Q2 & N2)|E2]; [|right; exact E2]. left. exists t2, P2. split; [exact E2|]. split; [exact Q2|]. intros b' [<-|Hb']; [exact N1|now apply N2]. }
  assert (OUT : forall l t P, (forall a, In a l -> (a < m1)%nat) -> is_plane t m1 m2 P ->
    (exists t', mfold (fun t a => mfold (fun t b => obind (g b a) (fun s => div2 t b a s)) (seq 0 m2) t) l t = Ok t' /\ forall a, In a l -> G b0 a <> 0) \/
    mfold (fun t a => mfold (fun t b => obind (g b a) (fun s => div2 t b a s)) (seq 0 m2) t) l t = UB).
  { intros l. induction l as [|a l IH]; intros t0 P0 HL HP0; [left; exists t0; split; [reflexivity|intros a []]|].
    cbn [mfold]. destruct (IN a (seq 0 m2) t0 P0 (HL a (or_introl eq_refl)) ltac:(intros b Hb'; apply in_seq in Hb'; lia) HP0) as [(t1 & P1 & E1 & Q1 & N1)|E1]; [|right; now rewrite E1]. rewrite E1. cbn [obind].
    destruct (IH t1 P1 (fun b' Hb' => HL b' (or_intror Hb')) Q1) as [(t2 & E2 & N2)|E2]; [|right; exact E2]. left. exists t2. split; [exact E2|]. intros a' [<-|Ha']; [apply N1; apply in_seq; lia|now apply N2]. }
  destruct (OUT (seq 0 m1) t P ltac:(intros a Ha'; apply in_seq in Ha'; lia) HP) as [(t' & E & N)|E]; [|exact E]. exfalso. apply (N a0); [apply in_seq; lia|exact HZ].
Qed.

(** ** Numbers of blocks *)

Lemma blocks_ok n f : (0 < f)%nat -> (n <= blocks n f * f)%nat /\ (blocks n f * f < n + f)%nat.
Proof.
  intros Hf. unfold blocks. pose proof (Nat.div_mod n f ltac:(lia)) as D. pose proof (Nat.mod_upper_bound n f ltac:(lia)) as M.
  destruct (Nat.eqb_spec (f - n mod f) f) as [E|E].
  - rewrite Nat.add_0_r. nia.
  - assert (n + (f - n mod f) = (n / f + 1) * f)%nat as -> by nia. rewrite Nat.div_mul by lia. nia.
Qed.

Lemma block_lt n f i : (0 < f)%nat -> (i < n)%nat -> (i / f < blocks n f)%nat.
Proof. intros Hf Hi. destruct (blocks_ok n f Hf) as (A & _). apply Nat.div_lt_upper_bound; [lia|]. nia. Qed.

(** ** Filling *)

Lemma take_row_ok n v : length (fst (take_row n v)) = n /\ snd (take_row n v) = skipn n v /\ forall i, (i < n)%nat -> nth_error (fst (take_row n v)) i = Some (nth i v 0).
Proof.
  revert v. induction n as [|n IH]; intros v; [split; [reflexivity|split; [reflexivity|intros i Hi; lia]]|].
  destruct v as [|x v].
  - cbn [take_row fst snd]. split; [apply repeat_length|]. split; [reflexivity|]. intros i Hi. rewrite nth_error_repeat by exact Hi. now destruct i.
  - cbn [take_row]. destruct (IH v) as (A & B & C). destruct (take_row n v) as [row rest]. cbn [fst snd] in *. split; [simpl; lia|]. split; [exact B|]. intros [|i] Hi; [reflexivity|]. cbn [nth_error nth]. apply C. lia.
Qed.

Lemma nth_skipn (v : list R) n i : nth i (skipn n v) 0 = nth (n + i) v 0.
Proof.
  revert v. induction n as [|n IH]; intros v; [reflexivity|]. destruct v as [|x v]; [destruct i; reflexivity|]. cbn [skipn Nat.add nth]. apply IH.
Qed.

Lemma skipn_twice (v : list R) a b : skipn a (skipn b v) = skipn (b + a) v.
Proof. revert v. induction b as [|b IH]; intros v; [reflexivity|]. destruct v as [|x v]; [now rewrite !skipn_nil|]. cbn [skipn Nat.add]. apply IH. Qed.

Lemma take_plane_ok n2 n1 v : is_plane (fst (take_plane n2 n1 v)) n1 n2 (fun j i => nth (j * n1 + i) v 0) /\ snd (take_plane n2 n1 v) = skipn (n2 * n1) v.
Proof.
  revert v. induction n2 as [|m IH]; intros v; [split; [split; [reflexivity|intros j Hj; lia]|reflexivity]|].
  cbn [take_plane]. destruct (take_row_ok n1 v) as (A & B & C). destruct (take_row n1 v) as [row rest]. cbn [fst snd] in *. destruct (IH rest) as ((LP & HP) & HR). destruct (take_plane m n1 rest) as [rows rest']. cbn [fst snd] in *. subst rest. split.
  - split; [simpl; lia|]. intros [|j] Hj.
    + exists row. split; [reflexivity|]. split; [exact A|]. intros i Hi. rewrite C by exact Hi. reflexivity.
    + destruct (HP j ltac:(lia)) as (r & R1 & R2 & R3). exists r. split; [exact R1|]. split; [exact R2|]. intros i Hi. rewrite R3 by exact Hi. rewrite nth_skipn. f_equal. f_equal. simpl. lia.
  - rewrite HR. rewrite skipn_twice. f_equal.
Qed.

Lemma fold_ok v n1 n2 n3 : is_image (foldVector v n1 n2 n3) n1 n2 n3 (fun k j i => nth ((k * n2 + j) * n1 + i) v 0).
Proof.
  unfold foldVector. revert v. induction n3 as [|m IH]; intros v; [split; [reflexivity|intros k Hk; lia]|].
  cbn [take_image]. destruct (take_plane_ok n2 n1 v) as (HP & HR). destruct (take_plane n2 n1 v) as [plane rest]. cbn [fst snd] in *. destruct (IH rest) as (LI & HI). split; [simpl; lia|]. intros [|k] Hk.
  - exists plane. split; [reflexivity|exact HP].
  - destruct (HI k ltac:(lia)) as (p & P1 & P2). exists p. split; [exact P1|]. eapply is_plane_ext; [exact P2|]. intros j i _ _. cbn beta. subst rest. rewrite nth_skipn. f_equal. nia.
Qed.

(** ** Counts and intensities *)

Lemma each_ok {A} (step : list A -> nat -> outcome (list A)) (G : nat -> A) l0 d n : (n <= length l0)%nat ->
  (forall l i, (i < n)%nat -> length l = length l0 -> nth i l d = nth i l0 d -> step l i = Ok (upd l i (G i))) ->
  exists l', mfold step (seq 0 n) l0 = Ok l' /\ length l' = length l0 /\ (forall i, (i < n)%nat -> nth i l' d = G i) /\ (forall i, (n <= i)%nat -> nth i l' d = nth i l0 d).
Proof.
  intros Hn HS. assert (G0 : forall m, (m <= n)%nat -> exists l', mfold step (seq 0 m) l0 = Ok l' /\ length l' = length l0 /\ (forall i, (i < m)%nat -> nth i l' d = G i) /\ (forall i, (m <= i)%nat -> nth i l' d = nth i l0 d)).
  { induction m as [|m IH]; intros Hm; [exists l0; repeat split; intros; lia || reflexivity|].
    destruct (IH ltac:(lia)) as (l1 & E1 & L1 & A1 & B1). rewrite (mfold_seq_S _ _ _ _ E1). exists (upd l1 m (G m)). split; [apply HS; [lia|exact L1|apply B1; lia]|]. split; [now rewrite upd_length|]. split.
    - intros i Hi. destruct (Nat.eq_dec i m) as [->|N]; [apply nth_upd_eq; lia|]. rewrite nth_upd_neq by lia. apply A1. lia.
    - intros i Hi. rewrite nth_upd_neq by lia. apply B1. lia. }
  exact (G0 n ltac:(lia)).
Qed.

Lemma nth_some {A} (l : list A) i x d : nth_error l i = Some x -> nth i l d = x.
Proof. apply nth_error_nth. Qed.

Lemma diff_row_ok f sa row n (P S : nat -> R) : length row = n -> (forall i, (i < n)%nat -> nth_error row i = Some (P i)) -> (forall i, (i < n)%nat -> nth_error sa i = Some (S i) /\ S i <> 0) ->
  exists row', diff_row f sa row = Ok row' /\ length row' = n /\ forall i, (i < n)%nat -> nth_error row' i = Some (P i * (f / S i)).
Proof.
  intros L HP HS. unfold diff_row.
  match goal with |- context [mfold ?st _ _] => destruct (each_ok st (fun i => P i * (f / S i)) row 0 (length row)) as (row' & E & L' & A & _) end.
  - lia.
  - intros l i Hi Ll Hl. unfold vec_get. rewrite (nth_error_nth' l 0) by lia. cbn [obind]. destruct (HS i ltac:(lia)) as (S1 & S2). rewrite S1. cbn [obind]. destruct (Reqb_spec (S i) 0); [contradiction|].
    unfold vec_set. rewrite (proj2 (Nat.ltb_lt i (length l))) by lia. rewrite Hl, (nth_some row i (P i)) by (apply HP; lia). reflexivity.
  - exists row'. split; [exact E|]. split; [lia|]. intros i Hi. rewrite (nth_error_nth' row' 0) by lia. now rewrite A by lia.
Qed.

Lemma differential_ok image widths sas n1 n2 pix W S : is_image image n1 n2 (length widths) pix -> is_plane sas n1 n2 S ->
  (forall k, (k < length widths)%nat -> nth_error widths k = Some (W k) /\ W k <> 0) -> (forall j i, (j < n2)%nat -> (i < n1)%nat -> S j i <> 0) ->
  exists image', convertToDifferential image widths sas = Ok image' /\ is_image image' n1 n2 (length widths) (fun k j i => pix k j i / (W k * S j i)).
Proof.
  intros (LI & HI) (LS & HS) HW NZ. unfold convertToDifferential.
  assert (PL : forall k plane, (k < length widths)%nat -> is_plane plane n1 n2 (pix k) ->
    exists plane', mfold (fun plane j => obind (vec_get sas j) (fun sa => obind (vec_get plane j) (fun row => obind (diff_row (1 / W k) sa row) (fun row' => vec_set plane j row')))) (seq 0 (length sas)) plane = Ok plane' /\
      is_plane plane' n1 n2 (fun j i => pix k j i * (1 / W k / S j i))).
  { intros k plane Hk (LP & HP).
    assert (CH : forall j, exists row', (j < n2)%nat -> length row' = n1 /\ (forall i, (i < n1)%nat -> nth_error row' i = Some (pix k j i * (1 / W k / S j i))) /\ forall sa row, nth_error sas j = Some sa -> nth_error plane j = Some row -> diff_row (1 / W k) sa row = Ok row').
    { intros j. destruct (lt_dec j n2) as [Hj|Hj]; [|exists []; intros; lia]. destruct (HS j Hj) as (sa & S1 & S2 & S3). destruct (HP j Hj) as (row & R1 & R2 & R3).
      destruct (diff_row_ok (1 / W k) sa row n1 (pix k j) (S j) R2 R3) as (row' & E & L' & A); [intros i Hi; split; [now apply S3|now apply NZ]|].
      exists row'. intros _. split; [exact L'|]. split; [exact A|]. intros sa' row0 Q1 Q2. congruence. }
    (* choose the rows *)
    assert (CH2 : exists f : nat -> list R, forall j, (j < n2)%nat -> length (f j) = n1 /\ (forall i, (i < n1)%nat -> nth_error (f j) i = Some (pix k j i * (1 / W k / S j i))) /\ forall sa row, nth_error sas j = Some sa -> nth_error plane j = Some row -> diff_row (1 / W k) sa row = Ok (f j)).
    { exists (fun j => match diff_row (1 / W k) (nth j sas []) (nth j plane []) with Ok r => r | _ => [] end). intros j Hj. destruct (CH j) as (row' & Q). destruct (Q Hj) as (Q1 & Q2 & Q3).
      destruct (HS j Hj) as (sa & S1 & _). destruct (HP j Hj) as (row & R1 & _). rewrite (nth_some _ _ _ [] S1), (nth_some _ _ _ [] R1), (Q3 sa row S1 R1). split; [exact Q1|]. split; [exact Q2|]. intros sa' row0 T1 T2. rewrite T1 in S1. rewrite T2 in R1. injection S1 as ->. injection R1 as ->. now apply Q3. }
    destruct CH2 as (f & Hf).
    match goal with |- context [mfold ?st _ _] => destruct (each_ok st f plane [] (length sas)) as (plane' & E & L' & A & _) end.
    - lia.
    - intros l j Hj Ll Hl. destruct (HS j ltac:(lia)) as (sa & S1 & _). destruct (HP j ltac:(lia)) as (row & R1 & _). unfold vec_get. rewrite S1. cbn [obind]. rewrite (nth_error_nth' l []) by lia. cbn [obind].
      rewrite Hl, (nth_some _ _ _ [] R1). destruct (Hf j ltac:(lia)) as (_ & _ & Q). rewrite (Q sa row S1 R1). cbn [obind]. unfold vec_set. rewrite (proj2 (Nat.ltb_lt j (length l))) by lia. reflexivity.
    - exists plane'. split; [exact E|]. split; [lia|]. intros j Hj. destruct (Hf j Hj) as (Q1 & Q2 & _). exists (f j). split; [|split; [exact Q1|exact Q2]]. rewrite (nth_error_nth' plane' []) by lia. now rewrite A by lia. }
  set (newp := fun k => match mfold (fun plane j => obind (vec_get sas j) (fun sa => obind (vec_get plane j) (fun row => obind (diff_row (1 / W k) sa row) (fun row' => vec_set plane j row')))) (seq 0 (length sas)) (nth k image []) with Ok p => p | _ => [] end).
  match goal with |- context [mfold ?st (seq 0 (length widths)) image] => destruct (each_ok st newp image [] (length widths)) as (image' & E & L' & A & _) end.
  - lia.
  - intros l k Hk Ll Hl. destruct (HI k Hk) as (plane & P1 & P2). destruct (HW k Hk) as (W1 & W2). unfold vec_get at 1 2. rewrite (nth_error_nth' l []) by lia. cbn [obind]. rewrite W1. cbn [obind]. destruct (Reqb_spec (W k) 0); [contradiction|].
    rewrite Hl. unfold newp. rewrite (nth_some _ _ _ [] P1). destruct (PL k plane Hk P2) as (plane' & E & _). rewrite E. cbn [obind]. unfold vec_set. rewrite (proj2 (Nat.ltb_lt k (length l))) by lia. reflexivity.
  - exists image'. split; [exact E|]. split; [lia|]. intros k Hk. destruct (HI k Hk) as (plane & P1 & P2). destruct (PL k plane Hk P2) as (plane' & E' & PP). exists plane'.
    split; [rewrite (nth_error_nth' image' []) by lia; rewrite A by lia; unfold newp; now rewrite (nth_some _ _ _ [] P1), E'|].
    eapply is_plane_ext; [exact PP|]. intros j i Hj Hi. cbn beta. destruct (HW k Hk) as (_ & W2). field. split; [now apply NZ|exact W2].
Qed.

Lemma int_row_ok w sa row n (P S V : nat -> R) out base : length row = n -> (forall i, (i < n)%nat -> nth_error row i = Some (P i)) -> (forall i, (i < n)%nat -> nth_error sa i = Some (S i)) ->
  (forall i, (i < n)%nat -> P i * w * S i = V (base + i)%nat) -> (base + n <= length out)%nat -> (forall p, (p < base)%nat -> nth p out 0 = V p) ->
  exists out', int_row w sa row (out, base) = Ok (out', (base + n)%nat) /\ length out' = length out /\ forall p, (p < base + n)%nat -> nth p out' 0 = V p.
Proof.
  intros L HP HS HV HB HO. unfold int_row. rewrite L.
  assert (G : forall m, (m <= n)%nat -> exists out', mfold (fun '(out, idx) i => obind (vec_get row i) (fun v => obind (vec_get sa i) (fun s => obind (vec_set out idx (v * w * s)) (fun out' => Ok (out', Datatypes.S idx))))) (seq 0 m) (out, base) = Ok (out', (base + m)%nat) /\ length out' = length out /\ forall p, (p < base + m)%nat -> nth p out' 0 = V p).
  { induction m as [|m IH]; intros Hm; [exists out; rewrite Nat.add_0_r; split; [reflexivity|]; split; [reflexivity|exact HO]|].
    destruct (IH ltac:(lia)) as (o1 & E1 & L1 & A1). rewrite (mfold_seq_S _ _ _ _ E1). unfold vec_get. rewrite HP by lia. cbn [obind]. rewrite HS by lia. cbn [obind]. unfold vec_set. rewrite (proj2 (Nat.ltb_lt _ _)) by lia. cbn [obind].
    exists (upd o1 (base + m) (P m * w * S m)). split; [f_equal; f_equal; lia|]. split; [now rewrite upd_length|]. intros p Hp. destruct (Nat.eq_dec p (base + m)) as [->|N]; [rewrite nth_upd_eq by lia; apply HV; lia|]. rewrite nth_upd_neq by lia. apply A1. lia. }
  exact (G n ltac:(lia)).
Qed.

Lemma integral_ok out image widths sas n1 n2 pix W S V : is_image image n1 n2 (length widths) pix -> is_plane sas n1 n2 S ->
  (forall k, (k < length widths)%nat -> nth_error widths k = Some (W k)) -> length out = (length widths * n2 * n1)%nat ->
  (forall k j i, (k < length widths)%nat -> (j < n2)%nat -> (i < n1)%nat -> pix k j i * W k * S j i = V ((k * n2 + j) * n1 + i)%nat) ->
  exists out', convertToIntegral out image widths sas = Ok out' /\ length out' = length out /\ forall p, (p < length out)%nat -> nth p out' 0 = V p.
Proof.
  intros (LI & HI) (LS & HS) HW HL HV. unfold convertToIntegral. rewrite LS.
  assert (PL : forall k plane o, (k < length widths)%nat -> is_plane plane n1 n2 (pix k) -> length o = length out -> (forall p, (p < k * n2 * n1)%nat -> nth p o 0 = V p) -> forall m, (m <= n2)%nat ->
    exists o', mfold (fun st j => obind (vec_get sas j) (fun sa => obind (vec_get plane j) (fun row => int_row (W k) sa row st))) (seq 0 m) (o, (k * n2 * n1)%nat) = Ok (o', (k * n2 * n1 + m * n1)%nat) /\ length o' = length out /\ forall p, (p < k * n2 * n1 + m * n1)%nat -> nth p o' 0 = V p).
  { intros k plane o Hk (LP & HP) Lo Ho m. induction m as [|m IH]; intros Hm; [exists o; split; [simpl; now rewrite Nat.add_0_r|]; split; [exact Lo|]; intros p Hp; apply Ho; lia|].
    destruct (IH ltac:(lia)) as (o1 & E1 & L1 & A1). rewrite (mfold_seq_S _ _ _ _ E1). destruct (HS m ltac:(lia)) as (sa & S1 & S2 & S3). destruct (HP m ltac:(lia)) as (row & R1 & R2 & R3). unfold vec_get. rewrite S1. cbn [obind]. rewrite R1. cbn [obind].
    destruct (int_row_ok (W k) sa row n1 (pix k m) (S m) V o1 (k * n2 * n1 + m * n1)%nat R2 R3 S3) as (o2 & E2 & L2 & A2).
    - intros i Hi. rewrite HV by lia. f_equal. nia.
    - rewrite L1, HL. assert (k * n2 + m + 1 <= length widths * n2)%nat by nia. nia.
    - exact A1.
    - exists o2. split; [rewrite E2; f_equal; f_equal; simpl; lia|]. split; [lia|]. intros p Hp. apply A2. simpl in Hp. lia. }
  assert (OUT : forall n, (n <= length widths)%nat -> exists o', mfold (fun st k => obind (vec_get image k) (fun plane => obind (vec_get widths k) (fun w => mfold (fun st j => obind (vec_get sas j) (fun sa => obind (vec_get plane j) (fun row => int_row w sa row st))) (seq 0 n2) st))) (seq 0 n) (out, 0%nat) = Ok (o', (n * n2 * n1)%nat) /\ length o' = length out /\ forall p, (p < n * n2 * n1)%nat -> nth p o' 0 = V p).
  { induction n as [|n IH]; intros Hn; [exists out; split; [reflexivity|]; split; [reflexivity|]; intros p Hp; lia|].
    destruct (IH ltac:(lia)) as (o1 & E1 & L1 & A1). rewrite (mfold_seq_S _ _ _ _ E1). destruct (HI n ltac:(lia)) as (plane & P1 & P2). unfold vec_get at 1 2. rewrite P1. cbn [obind]. rewrite HW by lia. cbn [obind].
    destruct (PL n plane o1 ltac:(lia) P2 L1 A1 n2 ltac:(lia)) as (o2 & E2 & L2 & A2). exists o2. split; [rewrite E2; f_equal; f_equal; simpl; lia|]. split; [exact L2|]. intros p Hp. apply A2. simpl in Hp. lia. }
  destruct (OUT (length widths) ltac:(lia)) as (o' & E & L' & A). rewrite E. cbn [obind fst]. exists o'. split; [reflexivity|]. split; [exact L'|]. intros p Hp. apply A. lia.
Qed.

(** ** Integrals *)

Lemma plane_integral_ok sa plane n1 n2 S P : (forall i j, (i < n1)%nat -> (j < n2)%nat -> get2 sa i j = Ok (S i j)) -> is_plane plane n1 n2 P ->
  plane_integral sa plane n1 n2 = Ok (sum2 (fun i j => S i j * P j i) n1 n2).
Proof.
  intros HS HP. unfold plane_integral.
  assert (IN : forall j acc n, (j < n2)%nat -> (n <= n1)%nat -> mfold (fun acc i => obind (get2 sa i j) (fun s => obind (get2 plane j i) (fun v => Ok (acc + s * v)))) (seq 0 n) acc = Ok (acc + sumn (fun i => S i j * P j i) n)).
  { intros j acc n Hj. induction n as [|n IH]; intros Hn; [rewrite sumn_0; cbn [seq mfold]; now rewrite Rplus_0_r|].
    rewrite (mfold_seq_S _ _ _ _ (IH ltac:(lia))). rewrite HS by lia. cbn [obind]. rewrite (get2_ok plane n1 n2 P j n HP) by lia. cbn [obind]. rewrite sumn_S. f_equal. ring. }
  assert (OUT : forall m, (m <= n2)%nat -> mfold (fun acc j => mfold (fun acc i => obind (get2 sa i j) (fun s => obind (get2 plane j i) (fun v => Ok (acc + s * v)))) (seq 0 n1) acc) (seq 0 m) 0 = Ok (sumn (fun j => sumn (fun i => S i j * P j i) n1) m)).
  { induction m as [|m IH]; intros Hm; [reflexivity|]. rewrite (mfold_seq_S _ _ _ _ (IH ltac:(lia))). rewrite IN by lia. now rewrite sumn_S. }
  rewrite (OUT n2) by lia. f_equal. unfold sum2. symmetry. apply sumn_swap.
Qed.

Section Geometry.
  Variable sky : R * R -> R * R -> nat -> nat -> R.

  Lemma integrals_ok w pix S : is_image (r_image w) (r_n1 w) (r_n2 w) (length (r_energies w)) pix -> r_energies w <> [] ->
    (forall i j, (i < r_n1 w)%nat -> (j < r_n2 w)%nat -> get2 (solidAngles sky w) i j = Ok (S i j)) ->
    exists values total, computeMapIntegrals sky w = Ok (mkRmap (r_image w) (solidAngles sky w) (r_n1 w) (r_n2 w) (r_crpix w) (r_cdelt w) (r_periodic w) (r_energies w) values total) /\
      length values = length (r_energies w) /\ (forall k, (k < length (r_energies w))%nat -> nth_error values k = Some (sum2 (fun i j => S i j * pix k j i) (r_n1 w) (r_n2 w))) /\
      total = (if (length (r_energies w) =? 1)%nat then nth 0 values 0 else log_trapezoid (fun k => nth k (r_energies w) 0) (fun k => nth k values 0) (length (r_energies w))).
  Proof.
    intros (LI & HI) NE HS. unfold computeMapIntegrals.
    set (vals := fun n => map (fun k => sum2 (fun i j => S i j * pix k j i) (r_n1 w) (r_n2 w)) (seq 0 n)).
    assert (VL : forall n, (n <= length (r_energies w))%nat -> mfold (fun values k => obind (vec_get (r_image w) k) (fun plane => obind (plane_integral (solidAngles sky w) plane (r_n1 w) (r_n2 w)) (fun v => Ok (values ++ [v])))) (seq 0 n) [] = Ok (vals n)).
    { induction n as [|n IH]; intros Hn; [reflexivity|]. rewrite (mfold_seq_S _ _ _ _ (IH ltac:(lia))). destruct (HI n ltac:(lia)) as (plane & P1 & P2). unfold vec_get. rewrite P1. cbn [obind]. rewrite (plane_integral_ok _ _ _ _ S (pix n) HS P2). cbn [obind]. unfold vals. now rewrite seq_S, map_app. }
    rewrite VL by lia. cbn [obind].
    assert (LV : length (vals (length (r_energies w))) = length (r_energies w)) by (unfold vals; now rewrite map_length, seq_length).
    assert (NV : forall k, (k < length (r_energies w))%nat -> nth_error (vals (length (r_energies w))) k = Some (sum2 (fun i j => S i j * pix k j i) (r_n1 w) (r_n2 w))).
    { intros k Hk. unfold vals. refine (map_nth_error (fun k => sum2 (fun i j => S i j * pix k j i) (r_n1 w) (r_n2 w)) k _ _). rewrite (nth_error_nth' _ 0%nat) by (rewrite seq_length; lia). now rewrite seq_nth by lia. }
    set (vs := vals (length (r_energies w))) in *.
    assert (TOT : forall n, (n <= length (r_energies w) - 1)%nat -> mfold (fun t k => obind (vec_get vs (k + 1)) (fun v1 => obind (vec_get (r_energies w) (k + 1)) (fun e1 => obind (vec_get vs k) (fun v0 => obind (vec_get (r_energies w) k) (fun e0 => Ok (t + (v1 * e1 + v0 * e0) / 2 * ln (e1 / e0))))))) (seq 0 n) 0 = Ok (sumn (fun k => (nth (Datatypes.S k) vs 0 * nth (Datatypes.S k) (r_energies w) 0 + nth k vs 0 * nth k (r_energies w) 0) / 2 * ln (nth (Datatypes.S k) (r_energies w) 0 / nth k (r_energies w) 0)) n)).
    { induction n as [|n IH]; intros Hn; [reflexivity|]. rewrite (mfold_seq_S _ _ _ _ (IH ltac:(lia))). rewrite Nat.add_1_r. rewrite (vec_get_ok vs (Datatypes.S n) 0) by lia. cbn [obind]. rewrite (vec_get_ok (r_energies w) (Datatypes.S n) 0) by lia. cbn [obind]. rewrite (vec_get_ok vs n 0) by lia. cbn [obind]. rewrite (vec_get_ok (r_energies w) n 0) by lia. cbn [obind]. now rewrite sumn_S. }
    destruct (r_energies w) as [|e [|e' l]] eqn:EE; [congruence| |]; rewrite <- EE in *.
    - destruct vs as [|v0 vs'] eqn:EV; [rewrite EE in LV; discriminate LV|]. rewrite <- EV in *. assert (vec_at vs 0 = Ok (nth 0 vs 0)) as -> by (rewrite EV; reflexivity). cbn [obind]. exists vs, (nth 0 vs 0). split; [reflexivity|]. split; [exact LV|]. split; [exact NV|]. rewrite EE. reflexivity.
    - rewrite TOT by lia. cbn [obind]. eexists vs, _. split; [reflexivity|]. split; [exact LV|]. split; [exact NV|]. assert (length (r_energies w) =? 1 = false)%nat as -> by (rewrite EE; reflexivity). reflexivity.
  Qed.

  Lemma sky_table w i j : r_sa w = [] -> (i < r_n1 w)%nat -> (j < r_n2 w)%nat -> get2 (solidAngles sky w) i j = Ok (sky (r_crpix w) (r_cdelt w) (i + 1)%nat (j + 1)%nat).
  Proof.
    intros HE Hi Hj. unfold solidAngles. rewrite HE. unfold get2, vec_get. erewrite map_nth_error; [|rewrite (nth_error_nth' _ 0%nat) by (rewrite seq_length; lia); rewrite seq_nth by lia; reflexivity].
    cbn [obind]. erewrite map_nth_error; [|rewrite (nth_error_nth' _ 0%nat) by (rewrite seq_length; lia); rewrite seq_nth by lia; reflexivity]. reflexivity.
  Qed.

  (** The image after rebinning. *)
  Lemma rebin_image w f avg pix S : (0 < f)%nat -> is_image (r_image w) (r_n1 w) (r_n2 w) (length (r_energies w)) pix ->
    (forall i j, (i < r_n1 w)%nat -> (j < r_n2 w)%nat -> get2 (solidAngles sky w) i j = Ok (S i j)) ->
    (avg = true -> forall a b, (a < blocks (r_n1 w) f)%nat -> (b < blocks (r_n2 w) f)%nat -> block_sum f (r_n1 w) (r_n2 w) S a b <> 0) ->
    exists image', rebin sky w f avg = computeMapIntegrals sky (mkRmap image' [] (blocks (r_n1 w) f) (blocks (r_n2 w) f)
        ((fst (r_crpix w) - 1 / 2) / INR f + 1 / 2, (snd (r_crpix w) - 1 / 2) / INR f + 1 / 2) (fst (r_cdelt w) * INR f, snd (r_cdelt w) * INR f) (r_periodic w) (r_energies w) (r_values w) (r_total w)) /\
      is_image image' (blocks (r_n1 w) f) (blocks (r_n2 w) f) (length (r_energies w))
        (fun k b a => if avg then block_sum f (r_n1 w) (r_n2 w) (fun i j => pix k j i * S i j) a b / block_sum f (r_n1 w) (r_n2 w) S a b
                      else block_sum f (r_n1 w) (r_n2 w) (fun i j => pix k j i) a b).
  Proof.
    intros Hf (LI & HI) HS NZ. unfold rebin. destruct (Nat.eqb_spec f 0); [lia|]. cbv zeta.
    set (N1 := blocks (r_n1 w) f) in *. set (N2 := blocks (r_n2 w) f) in *. set (sa := solidAngles sky w) in *.
    assert (B1 : forall i, (i < r_n1 w)%nat -> (i / f < N1)%nat) by (intros; now apply block_lt). assert (B2 : forall j, (j < r_n2 w)%nat -> (j / f < N2)%nat) by (intros; now apply block_lt).
    assert (SUMS : exists sums, (if avg then gather (r_n1 w) (r_n2 w) f (fun i j => get2 sa i j) (zeros N1 N2) else Ok []) = Ok sums /\ (avg = true -> is_plane sums N1 N2 (fun b a => block_sum f (r_n1 w) (r_n2 w) S a b))).
    { destruct avg; [|exists []; split; [reflexivity|discriminate]]. destruct (gather_ok (r_n1 w) (r_n2 w) f (fun i j => get2 sa i j) S N1 N2 (zeros N1 N2) _ (zeros_plane N1 N2) B1 B2 HS) as (t & E & P). exists t. split; [exact E|]. intros _. eapply is_plane_ext; [exact P|]. intros b a _ _. cbn beta. ring. }
    destruct SUMS as (sums & ES & PS). rewrite ES. cbn [obind].
    set (step := fun image k => obind (vec_get (r_image w) k) (fun plane =>
      obind (gather (r_n1 w) (r_n2 w) f (fun i j => obind (get2 plane j i) (fun v => if avg then obind (get2 sa i j) (fun s => Ok (v * s)) else Ok v)) (zeros N1 N2)) (fun t =>
      obind (if avg then mfold (fun t ii => mfold (fun t jj => obind (get2 sums jj ii) (fun s => div2 t jj ii s)) (seq 0 N2) t) (seq 0 N1) t else Ok t) (fun t => vec_set image k t)))).
    set (Q := fun k b a => if avg then block_sum f (r_n1 w) (r_n2 w) (fun i j => pix k j i * S i j) a b / block_sum f (r_n1 w) (r_n2 w) S a b else block_sum f (r_n1 w) (r_n2 w) (fun i j => pix k j i) a b).
    assert (PLN : forall k, (k < length (r_energies w))%nat -> exists t, is_plane t N1 N2 (Q k) /\ forall image, step image k = vec_set image k t).
    { intros k Hk. destruct (HI k Hk) as (plane & P1 & P2). unfold step, vec_get. rewrite P1. cbn [obind].
      destruct (gather_ok (r_n1 w) (r_n2 w) f (fun i j => obind (get2 plane j i) (fun v => if avg then obind (get2 sa i j) (fun s => Ok (v * s)) else Ok v)) (fun i j => if avg then pix k j i * S i j else pix k j i) N1 N2 (zeros N1 N2) _ (zeros_plane N1 N2) B1 B2) as (t & E & P).
      { intros i j Hi Hj. rewrite (get2_ok plane _ _ _ j i P2 Hj Hi). cbn [obind]. destruct avg; [|reflexivity]. rewrite HS by assumption. reflexivity. }
      rewrite E. cbn [obind]. unfold Q. destruct avg.
      - destruct (divide_ok N1 N2 t _ (fun jj ii => get2 sums jj ii) (fun b a => block_sum f (r_n1 w) (r_n2 w) S a b) P) as (t' & E' & P').
        { intros a b Ha Hb. split; [apply (get2_ok sums N1 N2 _ b a (PS eq_refl) Hb Ha)|now apply NZ]. }
        exists t'. split; [|intros image; rewrite E'; reflexivity]. eapply is_plane_ext; [exact P'|]. intros b a _ _. cbn beta. f_equal. ring.
      - exists t. split; [|intros image; reflexivity]. eapply is_plane_ext; [exact P|]. intros b a _ _. cbn beta. ring. }
    set (newp := fun k => match step (repeat [] (Datatypes.S k)) k with Ok im => nth k im [] | _ => [] end).
    assert (NP : forall k t, (k < length (r_energies w))%nat -> (forall image, step image k = vec_set image k t) -> newp k = t).
    { intros k t Hk HT. unfold newp. rewrite HT. unfold vec_set. rewrite repeat_length. rewrite (proj2 (Nat.ltb_lt _ _)) by lia. apply nth_upd_eq. rewrite repeat_length. lia. }
    destruct (each_ok step newp (r_image w) [] (length (r_energies w))) as (image' & E & L' & A & _).
    - lia.
    - intros l k Hk Ll _. destruct (PLN k Hk) as (t & _ & HT). rewrite (NP k t Hk HT), HT. unfold vec_set. rewrite (proj2 (Nat.ltb_lt _ _)) by lia. reflexivity.
    - rewrite E. cbn [obind]. exists image'. split; [reflexivity|]. split; [lia|]. intros k Hk. destruct (PLN k Hk) as (t & PT & HT). exists t. split; [|exact PT]. rewrite (nth_error_nth' image' []) by lia. rewrite A by lia. now rewrite (NP k t Hk HT).
  Qed.
End Geometry.

(** ** Extremes *)

Section MinMax.
  Context {Dir : Type}.
  Variable dirs : nat -> nat -> Dir.
  Variable dist : Dir -> R.

  Definition covers (s : @extremes Dir) (seen : Dir -> Prop) : Prop :=
    x_mind s = dist (x_min s) /\ x_maxd s = dist (x_max s) /\ seen (x_min s) /\ seen (x_max s) /\ forall d, seen d -> x_mind s <= dist d <= x_maxd s.

  Lemma look_covers s seen d : covers s seen -> covers (look dist s d) (fun d' => seen d' \/ d' = d).
  Proof.
    intros (A & B & C & D & E). pose proof (E _ C) as EC. unfold look. cbv zeta. destruct (Rltb_spec (dist d) (x_mind s)) as [Q|Q]; cbn [x_mind x_maxd x_min x_max].
    - destruct (Rltb_spec (x_maxd s) (dist d)); [lra|]. repeat split; cbn; auto; try lra; destruct H as [H| ->]; try lra; specialize (E _ H); lra.
    - destruct (Rltb_spec (x_maxd s) (dist d)); cbn; repeat split; cbn; auto; try lra; destruct H as [H| ->]; try lra; specialize (E _ H); lra.
  Qed.

  Lemma covers_ext s P Q : (forall d, P d <-> Q d) -> covers s P -> covers s Q.
  Proof. intros H (A & B & C & D & E). repeat split; auto; try (now apply H); apply E; now apply H. Qed.

  Lemma loop_covers {A} (f : A -> Dir) l s seen : covers s seen -> covers (fold_left (fun s a => look dist s (f a)) l s) (fun d => seen d \/ exists a, In a l /\ d = f a).
  Proof.
    revert s seen. induction l as [|a l IH]; intros s seen H; cbn [fold_left].
    - eapply covers_ext; [|exact H]. intros d. split; [now left|intros [?|(? & [] & _)]; assumption].
    - eapply covers_ext; [|apply IH, look_covers, H]. intros d. split.
      + intros [[?| ->]|(a' & Ha & ->)]; [now left|right; exists a; split; [now left|reflexivity]|right; exists a'; split; [now right|reflexivity]].
      + intros [?|(a' & [<-|Ha] & ->)]; [left; now left|left; now right|right; exists a'; split; [exact Ha|reflexivity]].
  Qed.
End MinMax.

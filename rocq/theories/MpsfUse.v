(** Cone integrals, derivatives and containment of a built object. *)
From Coq Require Import Reals List Lia Lra.
From Coquelicot Require Import Coquelicot.
From Verif Require Import Base AccumModel AccumProofs EvtModel MpsfModel MpsfSpec MpsfProofs MpsfInit.
Import ListNotations.
Local Open Scope R_scope.
Local Open Scope list_scope.

Lemma cone_unique f seps a u v : cone f seps a u -> cone f seps a v -> u = v.
Proof. intros A B. exact (eq_trans (eq_sym (is_RInt_unique _ _ _ _ A)) (is_RInt_unique _ _ _ _ B)). Qed.

Section Use.
  Context {Resp : Type}.
  Variable aeff_exposure : Resp -> R -> R.
  Variable psf_exposure : Resp -> R -> R -> R.
  Variable resps : list Resp.
  Variable energies seps : list R.
  Variable smax : R.
  Hypothesis G : grid seps smax.
  Hypothesis L2 : (2 <= length seps)%nat.
  Variable m : mean_psf.
  Hypothesis B : built aeff_exposure psf_exposure resps energies seps m.
  Hypothesis AE : ascending energies.

  Notation n := (length seps).
  Notation ne := (length energies).
  Notation f := (fun k : nat => mean_value aeff_exposure psf_exposure resps (nth k energies 0)).
  Notation shape := (shape aeff_exposure psf_exposure resps energies seps).
  Notation whole := (whole aeff_exposure psf_exposure resps energies seps).
  Notation scale := (scale aeff_exposure psf_exposure resps energies seps).

  Lemma smax_nth : nth (n - 1) seps 0 = smax.
  Proof. destruct G as (_ & H & _). exact (nth_error_nth seps (n - 1) 0 H). Qed.
  Lemma smin_nth : nth 0 seps 0 = 0.
  Proof. destruct G as (H & _ & _). exact (nth_error_nth seps 0 0 H). Qed.

  Lemma cone_whole k : cone (f k) seps smax (whole k).
  Proof. rewrite <- smax_nth. unfold MpsfInit.whole. apply (cone_node _ _ smax); [exact G|lia]. Qed.

  Lemma sep_interval a : 0 <= a < smax -> exists j, (S j < n)%nat /\ nth j seps 0 <= a < nth (S j) seps 0.
  Proof.
    intros Ha. destruct (find_interval seps a (grid_asc _ _ G)) as (j & Hj & Hlo & Hhi).
    - clear - L2. intros Z; rewrite Z in L2; simpl in L2; lia.
    - rewrite smin_nth. lra.
    - exists j. destruct (Nat.eq_dec (S j) n) as [E|E].
      + exfalso. replace j with (n - 1)%nat in Hlo by lia. rewrite smax_nth in Hlo. lra.
      + split; [lia|]. split; [exact Hlo|]. apply Hhi. lia.
  Qed.

  (** The cone integral at grid energy [k]. *)
  Definition held (k j : nat) (a : R) : R := node (shape k) seps j + piece (shape k) seps j a.

  Lemma integral_at_ok k j a : (k < ne)%nat -> (S j < n)%nat -> integral_at seps m k j a = Ok (held k j a).
  Proof.
    intros Hk Hj. destruct B as [HE HL HR HPL HP]. unfold integral_at.
    assert (Hidx : (k * n + (j + 1) < ne * n)%nat) by nia.
    rewrite (vec_get_ok seps j 0) by lia. rewrite (vec_get_ok seps (j + 1) 0) by lia. cbn [obind].
    rewrite (vec_at_ok _ (k * n + j) 0) by lia. rewrite (vec_at_ok _ (k * n + j + 1) 0) by lia. cbn [obind].
    rewrite segment_ok.
    2:{ rewrite !rad_degrees. apply degrees_lt. replace (j + 1)%nat with (S j) by lia. apply ascending_nth; [exact (grid_asc _ _ G)|lia|lia]. }
    cbn [obind]. rewrite (vec_at_ok _ k []) by (rewrite HPL; exact Hk). cbn [obind].
    destruct (HP k Hk) as (P1 & P2). rewrite (vec_at_ok _ j 0) by lia. cbn [obind]. rewrite P2 by lia. f_equal. unfold held. f_equal.
    unfold piece, ring. rewrite !rad_degrees. 
    replace (k * n + j + 1)%nat with (k * n + S j)%nat by lia. replace (j + 1)%nat with (S j) by lia.
    rewrite (HR k Hk j) by lia. rewrite (HR k Hk (S j)) by lia. reflexivity.
  Qed.

  (** Interpolation weight in energy. *)
  Definition held_at (k j : nat) (energy a : R) : R :=
    if (k =? ne - 1)%nat then held k j a
    else (energy - nth k energies 0) / (nth (S k) energies 0 - nth k energies 0) * (held (S k) j a - held k j a) + held k j a.

  Lemma integral_ok k j energy a : (k < ne)%nat -> nth k energies 0 <= energy -> ((S k < ne)%nat -> energy < nth (S k) energies 0) ->
    (S j < n)%nat -> nth j seps 0 <= a < nth (S j) seps 0 -> integral seps m a energy = Ok (held_at k j energy a).
  Proof.
    intros Hk Hlo Hhi Hj Ha. unfold integral. pose proof (b_energies _ _ _ _ _ _ B) as HE. rewrite HE.
    rewrite (ub_at energies energy k AE Hk Hlo Hhi). cbn [obind].
    rewrite (vec_get_ok seps 0 0) by lia. cbn [obind]. rewrite back_ok by (intros Z; rewrite Z in L2; simpl in L2; lia). cbn [obind].
    rewrite smin_nth, smax_nth.
    assert (0 <= a).
    { destruct j as [|j]; [rewrite smin_nth in Ha; lra|]. pose proof (ascending_nth seps (grid_asc _ _ G) 0 (S j) ltac:(lia) ltac:(lia)) as Q. rewrite smin_nth in Q. lra. }
    assert (a < smax).
    { destruct (Nat.eq_dec (S j) (n - 1)) as [E|E]; [rewrite E, smax_nth in Ha; lra|].
      pose proof (ascending_nth seps (grid_asc _ _ G) (S j) (n - 1) ltac:(lia) ltac:(lia)) as Q. rewrite smax_nth in Q. lra. }
    destruct (Rltb_spec a 0); [lra|]. destruct (Rleb_spec smax a); [lra|].
    rewrite (ub_at seps a j (grid_asc _ _ G)); [|lia|lra|intros; lra]. cbn [obind]. replace (S j - 1)%nat with j by lia.
    rewrite integral_at_ok by assumption. cbn [obind]. unfold held_at. destruct (Nat.eqb_spec k (ne - 1)); [reflexivity|].
    rewrite integral_at_ok by lia. cbn [obind]. rewrite (vec_at_ok energies k 0) by lia. rewrite (vec_at_ok energies (k + 1) 0) by lia. cbn [obind].
    replace (k + 1)%nat with (S k) by lia. pose proof (ascending_nth energies AE k (S k) ltac:(lia) ltac:(lia)) as Q.
    destruct (Reqb_spec (nth k energies 0) (nth (S k) energies 0)); [lra|]. reflexivity.
  Qed.

  Lemma held_fraction k j a c : (S j < n)%nat -> nth j seps 0 <= a < nth (S j) seps 0 -> fraction (f k) seps smax a c -> held k j a = c.
  Proof.
    intros Hj Ha (u & w & Cu & Cw & Hw & ->).
    pose proof (cone_unique _ _ _ _ _ Cw (cone_whole k)) as ->.
    pose proof (cone_piece (f k) seps smax j a G Hj ltac:(lra)) as Q. pose proof (cone_unique _ _ _ _ _ Cu Q) as ->.
    unfold held, MpsfInit.shape. rewrite node_scale by lia. rewrite piece_scale. unfold MpsfInit.scale.
    destruct (Req_EM_T (MpsfInit.whole aeff_exposure psf_exposure resps energies seps k) 0); [contradiction|]. unfold Rdiv. ring.
  Qed.

  Lemma integral_low energy a : energies <> [] -> energy < nth 0 energies 0 -> integral seps m a energy = Throw.
  Proof.
    intros Hne Hlo. unfold integral. rewrite (b_energies _ _ _ _ _ _ B). rewrite (ub_below energies energy AE Hne Hlo). cbn [obind].
    destruct energies; [congruence|reflexivity].
  Qed.

  Lemma integral_beyond energy a : energies <> [] -> nth 0 energies 0 <= energy -> (a < 0 \/ smax <= a) ->
    integral seps m a energy = Ok (if Rltb a 0 then 0 else 1).
  Proof.
    intros Hne Hlo Ha. destruct (find_interval energies energy AE Hne Hlo) as (k & Hk & H1 & H2).
    unfold integral. rewrite (b_energies _ _ _ _ _ _ B). rewrite (ub_at energies energy k AE Hk H1 H2). cbn [obind].
    rewrite (vec_get_ok seps 0 0) by lia. cbn [obind]. rewrite back_ok by (intros Z; rewrite Z in L2; simpl in L2; lia). cbn [obind].
    rewrite smin_nth, smax_nth. destruct (Rltb_spec a 0); [reflexivity|]. destruct (Rleb_spec smax a); [reflexivity|lra].
  Qed.

  Lemma integral_top energy a : energies <> [] -> nth (ne - 1) energies 0 <= energy -> integral seps m a energy = integral seps m a (nth (ne - 1) energies 0).
  Proof.
    intros Hne Hhi. assert (Hn : (ne - 1 < ne)%nat) by (destruct energies; [congruence|simpl; lia]).
    assert (H0 : nth 0 energies 0 <= nth (ne - 1) energies 0).
    { destruct (Nat.eq_dec 0 (ne - 1)) as [<-|]; [lra|]. left. apply ascending_nth; [exact AE|lia|lia]. }
    destruct (Rlt_le_dec a 0) as [Ha|Ha]; [rewrite !integral_beyond by (auto; lra); reflexivity|].
    destruct (Rle_lt_dec smax a) as [Hb|Hb]; [rewrite !integral_beyond by (auto; lra); reflexivity|].
    destruct (sep_interval a) as (j & Hj & Hja); [lra|].
    rewrite (integral_ok (ne - 1) j energy a) by (assumption || lia || (intros; lia)).
    rewrite (integral_ok (ne - 1) j (nth (ne - 1) energies 0) a) by (assumption || lia || lra || (intros; lia)).
    unfold held_at. rewrite Nat.eqb_refl. reflexivity.
  Qed.

  (** ** Non-negative point spread functions *)
  Hypothesis PosP : forall r s e, 0 <= psf_exposure r s e.
  Hypothesis Small : smax <= 180.

  Lemma f_pos k s : 0 <= f k s.
  Proof.
    unfold mean_value. destruct (Rlt_dec 0 _) as [H|H]; [|lra]. apply Rmult_le_pos; [|left; now apply Rinv_0_lt_compat].
    unfold total. clear - PosP. induction resps as [|r l IH]; simpl; [lra|]. pose proof (PosP r s (nth k energies 0)). lra.
  Qed.

  Lemma ring_pos g s : (forall s, 0 <= g s) -> 0 <= s <= smax -> 0 <= ring g s.
  Proof.
    intros Hg Hs. unfold ring. pose proof PI_RGT_0. apply Rmult_le_pos; [apply Rmult_le_pos; [lra|apply Hg]|].
    pose proof (Rmult_le_pos (180 - s) PI ltac:(lra) ltac:(lra)). pose proof (Rmult_le_pos s PI ltac:(lra) ltac:(lra)).
    apply sin_ge_0; unfold degrees; lra.
  Qed.

  Lemma sep_range i : (i < n)%nat -> 0 <= nth i seps 0 <= smax.
  Proof.
    intros Hi. split.
    - destruct (Nat.eq_dec 0 i) as [<-|Hne]; [rewrite smin_nth; lra|]. left.
      pose proof (ascending_nth seps (grid_asc _ _ G) 0 i ltac:(lia) ltac:(lia)) as Q. rewrite smin_nth in Q. exact Q.
    - destruct (Nat.eq_dec i (n - 1)) as [->|Hne]; [rewrite smax_nth; lra|]. left.
      pose proof (ascending_nth seps (grid_asc _ _ G) i (n - 1) ltac:(lia) ltac:(lia)) as Q. rewrite smax_nth in Q. exact Q.
  Qed.

  Lemma seg_mono t1 t2 a b y1 y2 : t1 < t2 -> t1 <= a -> a <= b -> b <= t2 -> 0 <= y1 -> 0 <= y2 -> seg_value t1 t2 a y1 y2 <= seg_value t1 t2 b y1 y2.
  Proof.
    intros H Ha Hab Hb H1 H2.
    assert (E : seg_value t1 t2 b y1 y2 - seg_value t1 t2 a y1 y2 =
      (b - a) * ((y1 * ((t2 - a) + (t2 - b)) + y2 * ((a - t1) + (b - t1))) / (2 * (t2 - t1)))).
    { unfold seg_value. field. lra. }
    assert (0 <= (b - a) * ((y1 * ((t2 - a) + (t2 - b)) + y2 * ((a - t1) + (b - t1))) / (2 * (t2 - t1)))).
    { apply Rmult_le_pos; [lra|]. apply Rmult_le_pos; [nra|]. left. apply Rinv_0_lt_compat. lra. }
    lra.
  Qed.

  Lemma piece_mono g j a b : (forall s, 0 <= g s) -> (S j < n)%nat -> nth j seps 0 <= a -> a <= b -> b <= nth (S j) seps 0 ->
    piece g seps j a <= piece g seps j b.
  Proof.
    intros Hg Hj Ha Hab Hb. unfold piece. apply seg_mono.
    - apply degrees_lt. apply ascending_nth; [exact (grid_asc _ _ G)|lia|lia].
    - now apply degrees_le.
    - now apply degrees_le.
    - now apply degrees_le.
    - apply ring_pos; [exact Hg|apply sep_range; lia].
    - apply ring_pos; [exact Hg|apply sep_range; lia].
  Qed.

  Lemma piece_start g j : piece g seps j (nth j seps 0) = 0.
  Proof. unfold piece, seg_value. unfold Rdiv. ring. Qed.

  Lemma node_mono g i j : (forall s, 0 <= g s) -> (i <= j)%nat -> (j < n)%nat -> node g seps i <= node g seps j.
  Proof.
    intros Hg Hij Hj. induction Hij as [|j Hij IH]; [lra|]. eapply Rle_trans; [apply IH; lia|].
    rewrite node_S by exact Hj. pose proof (piece_mono g j (nth j seps 0) (nth (S j) seps 0) Hg Hj ltac:(lra)) as Q.
    rewrite piece_start in Q. pose proof (ascending_nth seps (grid_asc _ _ G) j (S j) ltac:(lia) ltac:(lia)). 
    specialize (Q ltac:(lra) ltac:(lra)). lra.
  Qed.

  Lemma whole_pos k : 0 <= whole k.
  Proof.
    unfold MpsfInit.whole. change 0 with (node (f k) seps 0). apply node_mono; [apply f_pos|lia|lia].
  Qed.

  Lemma scale_pos k : 0 <= scale k.
  Proof.
    unfold MpsfInit.scale. destruct (Req_EM_T _ 0) as [E|E]; [lra|]. left. apply Rinv_0_lt_compat. pose proof (whole_pos k). 
    unfold MpsfInit.whole in *. lra.
  Qed.

  Lemma shape_pos k s : 0 <= shape k s.
  Proof. unfold MpsfInit.shape. apply Rmult_le_pos; [apply f_pos|apply scale_pos]. Qed.

  Lemma shape_whole k : node (shape k) seps (n - 1) = if Req_EM_T (whole k) 0 then 0 else 1.
  Proof.
    unfold MpsfInit.shape. rewrite node_scale by lia. fold (whole k). unfold MpsfInit.scale.
    change (node _ seps (n - 1)) with (whole k). destruct (Req_EM_T _ 0) as [E|E]; [rewrite E; ring|]. apply Rinv_r. exact E.
  Qed.

  Lemma held_range k j a : (S j < n)%nat -> nth j seps 0 <= a <= nth (S j) seps 0 -> 0 <= held k j a <= 1.
  Proof.
    intros Hj Ha. unfold held.
    pose proof (node_mono (shape k) 0 j (shape_pos k) ltac:(lia) ltac:(lia)) as Q1. change (node (shape k) seps 0) with 0 in Q1.
    pose proof (piece_mono (shape k) j (nth j seps 0) a (shape_pos k) Hj ltac:(lra) ltac:(lra) ltac:(lra)) as Q2. rewrite piece_start in Q2.
    pose proof (piece_mono (shape k) j a (nth (S j) seps 0) (shape_pos k) Hj ltac:(lra) ltac:(lra) ltac:(lra)) as Q3.
    pose proof (node_mono (shape k) (S j) (n - 1) (shape_pos k) ltac:(lia) ltac:(lia)) as Q4. rewrite node_S in Q4 by exact Hj.
    rewrite shape_whole in Q4. destruct (Req_EM_T _ 0); lra.
  Qed.

  Lemma held_mono k i j a b : (S i < n)%nat -> (S j < n)%nat -> nth i seps 0 <= a < nth (S i) seps 0 -> nth j seps 0 <= b < nth (S j) seps 0 ->
    a <= b -> held k i a <= held k j b.
  Proof.
    intros Hi Hj Ha Hb Hab. unfold held. destruct (Nat.lt_trichotomy i j) as [L|[<-|L]].
    - pose proof (piece_mono (shape k) i a (nth (S i) seps 0) (shape_pos k) Hi ltac:(lra) ltac:(lra) ltac:(lra)) as Q1.
      pose proof (node_mono (shape k) (S i) j (shape_pos k) ltac:(lia) ltac:(lia)) as Q2. rewrite node_S in Q2 by exact Hi.
      pose proof (piece_mono (shape k) j (nth j seps 0) b (shape_pos k) Hj ltac:(lra) ltac:(lra) ltac:(lra)) as Q3. rewrite piece_start in Q3. lra.
    - pose proof (piece_mono (shape k) i a b (shape_pos k) Hi ltac:(lra) ltac:(lra) ltac:(lra)). lra.
    - exfalso. destruct (Nat.eq_dec (S j) i) as [E|E]; [rewrite E in Hb; lra|].
      pose proof (ascending_nth seps (grid_asc _ _ G) (S j) i ltac:(lia) ltac:(lia)). lra.
  Qed.

  Lemma weight_range k energy : (S k < ne)%nat -> nth k energies 0 <= energy < nth (S k) energies 0 ->
    0 <= (energy - nth k energies 0) / (nth (S k) energies 0 - nth k energies 0) <= 1.
  Proof.
    intros Hk He. set (w := (energy - nth k energies 0) / (nth (S k) energies 0 - nth k energies 0)).
    assert (E : w * (nth (S k) energies 0 - nth k energies 0) = energy - nth k energies 0) by (unfold w; field; lra). nra.
  Qed.

  Lemma held_at_range k j energy a : (k < ne)%nat -> nth k energies 0 <= energy -> ((S k < ne)%nat -> energy < nth (S k) energies 0) ->
    (S j < n)%nat -> nth j seps 0 <= a <= nth (S j) seps 0 -> 0 <= held_at k j energy a <= 1.
  Proof.
    intros Hk Hlo Hhi Hj Ha. unfold held_at. pose proof (held_range k j a Hj Ha). destruct (Nat.eqb_spec k (ne - 1)); [assumption|].
    pose proof (held_range (S k) j a Hj Ha). pose proof (weight_range k energy ltac:(lia) ltac:(split; [exact Hlo|apply Hhi; lia])). 
    set (w := _ / _) in *. nra.
  Qed.

  Lemma held_at_mono k i j energy a b : (k < ne)%nat -> nth k energies 0 <= energy -> ((S k < ne)%nat -> energy < nth (S k) energies 0) ->
    (S i < n)%nat -> (S j < n)%nat -> nth i seps 0 <= a < nth (S i) seps 0 -> nth j seps 0 <= b < nth (S j) seps 0 -> a <= b ->
    held_at k i energy a <= held_at k j energy b.
  Proof.
    intros Hk Hlo Hhi Hi Hj Ha Hb Hab. unfold held_at. pose proof (held_mono k i j a b Hi Hj Ha Hb Hab). destruct (Nat.eqb_spec k (ne - 1)); [assumption|].
    pose proof (held_mono (S k) i j a b Hi Hj Ha Hb Hab). pose proof (weight_range k energy ltac:(lia) ltac:(split; [exact Hlo|apply Hhi; lia])). 
    set (w := _ / _) in *. nra.
  Qed.

  Lemma integral_mono energy a b : energies <> [] -> nth 0 energies 0 <= energy -> a <= b ->
    exists u v, integral seps m a energy = Ok u /\ integral seps m b energy = Ok v /\ 0 <= u /\ u <= v /\ v <= 1.
  Proof.
    intros Hne Hlo Hab. destruct (find_interval energies energy AE Hne Hlo) as (k & Hk & H1 & H2).
    destruct (Rlt_le_dec a 0) as [Ha|Ha].
    - rewrite (integral_beyond energy a Hne Hlo) by (left; lra). destruct (Rltb_spec a 0); [|lra]. exists 0.
      destruct (Rlt_le_dec b 0) as [Hb|Hb].
      { rewrite (integral_beyond energy b Hne Hlo) by (left; lra). destruct (Rltb_spec b 0); [|lra]. exists 0. repeat split; lra. }
      destruct (Rle_lt_dec smax b) as [Hb'|Hb'].
      { rewrite (integral_beyond energy b Hne Hlo) by (right; lra). destruct (Rltb_spec b 0); [lra|]. exists 1. repeat split; lra. }
      destruct (sep_interval b ltac:(lra)) as (j & Hj & Hjb). rewrite (integral_ok k j energy b) by assumption.
      exists (held_at k j energy b). pose proof (held_at_range k j energy b Hk H1 H2 Hj ltac:(lra)). repeat split; lra.
    - destruct (Rle_lt_dec smax b) as [Hb'|Hb'].
      + rewrite (integral_beyond energy b Hne Hlo) by (right; lra). destruct (Rltb_spec b 0); [lra|].
        destruct (Rle_lt_dec smax a) as [Ha'|Ha'].
        { rewrite (integral_beyond energy a Hne Hlo) by (right; lra). destruct (Rltb_spec a 0); [lra|]. exists 1, 1. repeat split; lra. }
        destruct (sep_interval a ltac:(lra)) as (j & Hj & Hja). rewrite (integral_ok k j energy a) by assumption.
        exists (held_at k j energy a), 1. pose proof (held_at_range k j energy a Hk H1 H2 Hj ltac:(lra)). repeat split; lra.
      + destruct (sep_interval a ltac:(lra)) as (i & Hi & Hia). destruct (sep_interval b ltac:(lra)) as (j & Hj & Hjb).
        rewrite (integral_ok k i energy a) by assumption. rewrite (integral_ok k j energy b) by assumption.
        exists (held_at k i energy a), (held_at k j energy b).
        pose proof (held_at_range k i energy a Hk H1 H2 Hi ltac:(lra)). pose proof (held_at_range k j energy b Hk H1 H2 Hj ltac:(lra)).
        pose proof (held_at_mono k i j energy a b Hk H1 H2 Hi Hj Hia Hjb Hab). repeat split; lra.
  Qed.

  Lemma held_at_continuous k j energy a : continuous (held_at k j energy) a.
  Proof.
    apply (ex_derive_continuous (V := R_NormedModule)).
    unfold held_at. destruct (k =? ne - 1)%nat; unfold held, piece, seg_value, degrees; auto_derive; exact I.
  Qed.

  Lemma held_at_join k j energy : (S (S j) < n)%nat -> held_at k j energy (nth (S j) seps 0) = held_at k (S j) energy (nth (S j) seps 0).
  Proof.
    intros Hj. unfold held_at, held. rewrite !piece_start. rewrite !node_S by lia. destruct (k =? ne - 1)%nat; ring.
  Qed.

  Lemma held_at_end k energy : (k < ne)%nat -> nth k energies 0 <= energy -> whole k <> 0 -> ((S k < ne)%nat -> whole (S k) <> 0) ->
    held_at k (n - 2) energy smax = 1.
  Proof.
    intros Hk Hlo W1 W2.
    assert (Q : forall k, whole k <> 0 -> held k (n - 2) smax = 1).
    { intros k' W. unfold held. rewrite <- smax_nth. replace (n - 1)%nat with (S (n - 2)) by lia. rewrite <- node_S by lia.
      replace (S (n - 2)) with (n - 1)%nat by lia. rewrite shape_whole. destruct (Req_EM_T _ 0); [contradiction|reflexivity]. }
    unfold held_at. rewrite (Q k W1). destruct (Nat.eqb_spec k (ne - 1)); [reflexivity|]. rewrite (Q (S k)) by (apply W2; lia). ring.
  Qed.

  Lemma containment k energy p : (k < ne)%nat -> nth k energies 0 <= energy -> ((S k < ne)%nat -> energy < nth (S k) energies 0) ->
    whole k <> 0 -> ((S k < ne)%nat -> whole (S k) <> 0) -> 0 < p < 1 ->
    exists a, 0 < a < smax /\ integral seps m a energy = Ok p.
  Proof.
    intros Hk Hlo Hhi W1 W2 Hp.
    assert (F : forall d, (d <= n - 2)%nat -> p < held_at k d energy (nth (S d) seps 0) ->
      exists j, (S j < n)%nat /\ held_at k j energy (nth j seps 0) <= p < held_at k j energy (nth (S j) seps 0)).
    { induction d as [|d IH]; intros Hd Hup.
      - exists 0%nat. split; [lia|]. split; [|exact Hup]. unfold held_at, held. rewrite !piece_start. 
        change (node (shape k) seps 0) with 0. change (node (shape (S k)) seps 0) with 0. destruct (k =? ne - 1)%nat; lra.
      - destruct (Rle_lt_dec (held_at k (S d) energy (nth (S d) seps 0)) p) as [L|L].
        + exists (S d). split; [lia|]. split; [exact L|exact Hup].
        + apply IH; [lia|]. rewrite held_at_join by lia. exact L. }
    destruct (F (n - 2)%nat) as (j & Hj & Hp1 & Hp2); [lia| |].
    { replace (S (n - 2)) with (n - 1)%nat by lia. rewrite smax_nth, held_at_end by assumption. lra. }
    pose proof (ascending_nth seps (grid_asc _ _ G) j (S j) ltac:(lia) Hj) as Hs.
    destruct (IVT_gen (held_at k j energy) (nth j seps 0) (nth (S j) seps 0) p) as (x & Hx & Ex).
    { intros x. apply continuity_pt_filterlim. apply (held_at_continuous k j energy x). }
    { rewrite Rmin_left, Rmax_right by lra. lra. }
    rewrite Rmin_left, Rmax_right in Hx by lra.
    exists x.
    assert (x <> nth (S j) seps 0) by (intros ->; lra).
    assert (Hx0 : 0 < x).
    { destruct (sep_range j ltac:(lia)) as [R0 _]. destruct (Rle_lt_or_eq_dec _ _ R0) as [H0|H0]; [lra|].
      assert (x <> nth j seps 0); [|lra]. intros ->. rewrite <- H0 in *. 
      assert (j = 0)%nat as ->.
      { destruct j as [|j]; [reflexivity|]. exfalso. pose proof (ascending_nth seps (grid_asc _ _ G) 0 (S j) ltac:(lia) ltac:(lia)) as Q. rewrite smin_nth in Q. lra. }
      assert (Z : held_at k 0 energy 0 = 0); [|lra].
      rewrite <- smin_nth at 1. unfold held_at, held. rewrite !piece_start. 
      change (node (shape k) seps 0) with 0. change (node (shape (S k)) seps 0) with 0. destruct (k =? ne - 1)%nat; ring. }
    split.
    - split; [exact Hx0|]. destruct (sep_range (S j) Hj). lra.
    - rewrite (integral_ok k j energy x) by (assumption || lra). now rewrite Ex.
  Qed.
End Use.

(** C66: the averaged point spread function is normalised and its cone
    integral is a containment fraction. *)
From Coq Require Import Reals List Lia Lra.
From Coquelicot Require Import Coquelicot.
From Verif Require Import Base AccumModel AccumProofs EvtModel MpsfModel MpsfSpec MpsfProofs MpsfInit MpsfUse.
Import ListNotations.
Local Open Scope R_scope.
Local Open Scope list_scope.

Section C66.
  Context {Resp : Type}.
  Variable aeff_exposure : Resp -> R -> R.
  Variable psf_exposure : Resp -> R -> R -> R.
  Variable bilinear : list R -> R -> list R -> R -> list R -> R.
  Notation build := (init aeff_exposure psf_exposure bilinear).
  Notation mean := (mean_value aeff_exposure psf_exposure).

  (** The states of the table of separations that all objects share: empty at
      the start, then whatever the constructors leave. *)
  Inductive shared : list R -> Prop :=
  | shared_start : shared []
  | shared_next cur resps energies m seps : shared cur -> build cur resps energies = Ok (m, seps) -> shared seps.

  Lemma log_seps : grid (fill_separations []) 70 /\ length (fill_separations []) = 401%nat.
  Proof. destruct (log_grid (1 / 10000) 70 400) as (A & B & _); [lra|lia|]. split; [exact A|exact B]. Qed.

  Lemma fill_twice : fill_separations (fill_separations []) = fill_separations [].
  Proof. unfold fill_separations at 1. destruct log_seps as (_ & L). destruct (fill_separations []) eqn:E; [discriminate L|reflexivity]. Qed.

  Lemma build_seps cur resps energies m seps : build cur resps energies = Ok (m, seps) -> seps = fill_separations cur.
  Proof.
    unfold init. destruct (psf_loop _ _ _ _ _) as [psf| |]; try discriminate. cbn [obind].
    destruct (computePartialIntegrals _ _ _) as [pp| |]; try discriminate. cbn [obind].
    destruct (mfold _ _ _) as [pk| |]; try discriminate. cbn [obind]. intros H. injection H. auto.
  Qed.

  Lemma shared_fill cur : shared cur -> fill_separations cur = fill_separations [].
  Proof. induction 1 as [|cur resps energies m seps _ IH H]; [reflexivity|]. apply build_seps in H. subst seps. rewrite IH. apply fill_twice. Qed.

  Lemma shared_built cur resps energies m seps : shared cur -> build cur resps energies = Ok (m, seps) ->
    grid seps 70 /\ length seps = 401%nat /\ built aeff_exposure psf_exposure resps energies seps m.
  Proof.
    intros HS HB. pose proof (build_seps _ _ _ _ _ HB) as E. rewrite (shared_fill cur HS) in E.
    destruct log_seps as (G & L). rewrite <- E in G, L. split; [exact G|]. split; [exact L|].
    destruct (init_built aeff_exposure psf_exposure bilinear resps energies seps 70 G ltac:(lia) cur) as (m' & Hm & Bt & _ & _); [rewrite E; now apply shared_fill|].
    rewrite HB in Hm. injection Hm as ->. exact Bt.
  Qed.

  (** However many objects were built before, construction succeeds, on a
      strictly increasing grid of separations from zero to seventy degrees; the
      exposures are the sums over response functions, and the tabulated peak
      at each energy is the value at zero separation. *)
  Theorem C66_build : forall cur resps energies, shared cur ->
    exists m seps, build cur resps energies = Ok (m, seps) /\
      grid seps 70 /\ length seps = 401%nat /\ nth_error seps 1 = Some (1 / 10000) /\
      (forall other, shared other -> fill_separations other = seps) /\
      m_energies m = energies /\
      m_exposure m = map (fun e => total (fun r => aeff_exposure r e) resps) energies /\
      (forall k e, nth_error energies k = Some e ->
         exists v, nth_error (m_psfPeakValues m) k = Some v /\ value bilinear seps m e 0 = Ok v).
  Proof.
    intros cur resps energies HS. destruct log_seps as (G & L).
    destruct (init_built aeff_exposure psf_exposure bilinear resps energies _ 70 G ltac:(rewrite L; lia) cur (shared_fill cur HS)) as (m & Hm & Bt & X & P).
    exists m, (fill_separations []). split; [exact Hm|]. split; [exact G|]. split; [exact L|]. split.
    { exact (proj2 (proj2 (log_grid (1 / 10000) 70 400 ltac:(lra) ltac:(lia)))). }
    split; [intros; now apply shared_fill|]. split; [exact (b_energies _ _ _ _ _ _ Bt)|]. split; [exact X|exact P].
  Qed.

  (** The written table: one line per separation with the mean point spread
      function at every energy, divided by its integral over the cone of seventy
      degrees, so that the stored table integrates to one (where the integral
      vanishes the table is left alone). *)
  Theorem C66_written : forall cur resps energies m seps, shared cur -> build cur resps energies = Ok (m, seps) ->
    exists g : nat -> R -> R,
      write seps m = Ok (map (fun s => (s, map (fun k => g k s) (seq 0 (length energies)))) seps) /\
      forall k e, nth_error energies k = Some e ->
        exists w, cone (mean resps e) seps 70 w /\
          (w <> 0 -> (forall s, g k s = mean resps e s / w) /\ cone (g k) seps 70 1) /\
          (w = 0 -> forall s, g k s = mean resps e s).
  Proof.
    intros cur resps energies m seps HS HB. destruct (shared_built _ _ _ _ _ HS HB) as (G & L & [HE HL HR HPL HP]).
    exists (shape aeff_exposure psf_exposure resps energies seps). split.
    - unfold write. rewrite HE.
      rewrite (mfold_push _ (fun j => (nth j seps 0, map (fun k => shape aeff_exposure psf_exposure resps energies seps k (nth j seps 0)) (seq 0 (length energies))))).
      + f_equal. cbn [app]. 
        set (h := fun s => (s, map (fun k => shape aeff_exposure psf_exposure resps energies seps k s) (seq 0 (length energies)))).
        change (map (fun j => h (nth j seps 0)) (seq 0 (length seps)) = map h seps).
        apply nth_ext with (d := h 0) (d' := h 0); [now rewrite !map_length, seq_length|]. intros j Hj. rewrite map_length, seq_length in Hj.
        rewrite (nth_mapseq (fun j => h (nth j seps 0)) _ j (h 0) Hj). now rewrite map_nth.
      + intros acc j Hj. apply in_seq in Hj. rewrite (vec_get_ok seps j 0) by lia. cbn [obind].
        rewrite (mfold_push _ (fun k => shape aeff_exposure psf_exposure resps energies seps k (nth j seps 0))); [reflexivity|].
        intros acc' k Hk. apply in_seq in Hk. assert ((k * length seps + j < length energies * length seps)%nat) by nia.
        rewrite (vec_at_ok _ (k * length seps + j) 0) by (rewrite HL; lia). cbn [obind]. rewrite (HR k ltac:(lia) j ltac:(lia)). reflexivity.
    - intros k e He. pose proof (nth_error_nth energies k 0 He) as En. subst e.
      exists (whole aeff_exposure psf_exposure resps energies seps k).
      pose proof (cone_whole aeff_exposure psf_exposure resps energies seps 70 G ltac:(lia) k) as CW. split; [exact CW|].
      assert (SW : cone (shape aeff_exposure psf_exposure resps energies seps k) seps 70 (node (shape aeff_exposure psf_exposure resps energies seps k) seps (length seps - 1))).
      { rewrite <- (smax_nth seps 70 G) at 1. apply (cone_node _ _ 70); [exact G|lia]. }
      rewrite (shape_whole aeff_exposure psf_exposure resps energies seps ltac:(lia) k) in SW.
      unfold shape, scale in *. split; intros W.
      + destruct (Req_EM_T _ 0); [contradiction|]. split; [intros s; reflexivity|exact SW].
      + destruct (Req_EM_T _ 0); [|contradiction]. intros s. ring.
  Qed.

  (** The integral over a cone: the contained fraction at the energies of the
      grid, its linear interpolation between them, one from seventy degrees on;
      an energy below the grid is refused. *)
  Theorem C66_integral_partial : forall cur resps energies m seps, shared cur -> build cur resps energies = Ok (m, seps) -> ascending energies ->
    (forall e0 e a, nth_error energies 0 = Some e0 -> e < e0 -> integral seps m a e = Throw) /\
    (forall e0 e a, nth_error energies 0 = Some e0 -> e0 <= e -> a < 0 -> integral seps m a e = Ok 0) /\
    (forall e0 e a, nth_error energies 0 = Some e0 -> e0 <= e -> 70 <= a -> integral seps m a e = Ok 1) /\
    (forall k e a c, nth_error energies k = Some e -> 0 <= a < 70 -> fraction (mean resps e) seps 70 a c -> integral seps m a e = Ok c) /\
    (forall k e1 e2 e a c1 c2, nth_error energies k = Some e1 -> nth_error energies (S k) = Some e2 -> e1 <= e < e2 -> 0 <= a < 70 ->
       fraction (mean resps e1) seps 70 a c1 -> fraction (mean resps e2) seps 70 a c2 ->
       integral seps m a e = Ok (c1 + (e - e1) / (e2 - e1) * (c2 - c1))).
  Proof.
    intros cur resps energies m seps HS HB AE. destruct (shared_built _ _ _ _ _ HS HB) as (G & L & Bt).
    assert (L2 : (2 <= length seps)%nat) by lia.
    split; [|split; [|split; [|split]]].
    - intros e0 e a H0 He. pose proof (nth_error_nth energies 0 0 H0) as E0.
      apply (integral_low aeff_exposure psf_exposure resps energies seps m Bt AE); [intros ->; discriminate H0|now rewrite E0].
    - intros e0 e a H0 He Ha. pose proof (nth_error_nth energies 0 0 H0) as E0.
      rewrite (integral_beyond aeff_exposure psf_exposure resps energies seps 70 G L2 m Bt AE e a); [|intros ->; discriminate H0|now rewrite E0|now left].
      destruct (Rltb_spec a 0); [reflexivity|lra].
    - intros e0 e a H0 He Ha. pose proof (nth_error_nth energies 0 0 H0) as E0.
      rewrite (integral_beyond aeff_exposure psf_exposure resps energies seps 70 G L2 m Bt AE e a); [|intros ->; discriminate H0|now rewrite E0|now right].
      destruct (Rltb_spec a 0); [lra|reflexivity].
    - intros k e a c He Ha Hc. pose proof (nth_error_nth energies k 0 He) as Ek. subst e.
      assert (Hk : (k < length energies)%nat) by (apply nth_error_Some; congruence).
      destruct (sep_interval seps 70 G L2 a Ha) as (j & Hj & Hja).
      rewrite (integral_ok aeff_exposure psf_exposure resps energies seps 70 G L2 m Bt AE k j); try assumption; [|lra|intros Hs; apply ascending_nth; [exact AE|lia|exact Hs]].
      unfold held_at. pose proof (held_fraction aeff_exposure psf_exposure resps energies seps 70 G L2 k j a c Hj Hja Hc) as ->.
      f_equal. destruct (k =? length energies - 1)%nat; [reflexivity|]. unfold Rdiv. ring.
    - intros k e1 e2 e a c1 c2 He1 He2 He Ha Hc1 Hc2. pose proof (nth_error_nth energies k 0 He1) as Ek1. pose proof (nth_error_nth energies (S k) 0 He2) as Ek2. subst e1 e2.
      assert (Hk : (S k < length energies)%nat) by (apply nth_error_Some; congruence).
      destruct (sep_interval seps 70 G L2 a Ha) as (j & Hj & Hja).
      rewrite (integral_ok aeff_exposure psf_exposure resps energies seps 70 G L2 m Bt AE k j); try assumption; [|lia|lra|intros _; lra].
      unfold held_at. pose proof (held_fraction aeff_exposure psf_exposure resps energies seps 70 G L2 k j a c1 Hj Hja Hc1) as ->.
      pose proof (held_fraction aeff_exposure psf_exposure resps energies seps 70 G L2 (S k) j a c2 Hj Hja Hc2) as ->.
      destruct (Nat.eqb_spec k (length energies - 1)); [lia|]. f_equal. ring.
  Qed.

  (** For a point spread function that is nowhere negative the integral never
      leaves [0, 1] and does not decrease with the angle. *)
  Theorem C66_monotone : forall cur resps energies m seps e0 e a b, shared cur -> build cur resps energies = Ok (m, seps) -> ascending energies ->
    (forall r s e, 0 <= psf_exposure r s e) -> nth_error energies 0 = Some e0 -> e0 <= e -> a <= b ->
    exists u v, integral seps m a e = Ok u /\ integral seps m b e = Ok v /\ 0 <= u /\ u <= v /\ v <= 1.
  Proof.
    intros cur resps energies m seps e0 e a b HS HB AE Pos H0 He Hab. destruct (shared_built _ _ _ _ _ HS HB) as (G & L & Bt).
    pose proof (nth_error_nth energies 0 0 H0) as E0. subst e0.
    apply (integral_mono aeff_exposure psf_exposure resps energies seps 70 G ltac:(lia) m Bt AE Pos ltac:(lra)); try assumption. intros ->. discriminate H0.
  Qed.

  (** Every containment fraction has a radius: the root finder behind
      containmentRadius has a root to find, at energies where the point spread
      function does not vanish. *)
  Theorem C66_containment : forall cur resps energies m seps k e1 e p, shared cur -> build cur resps energies = Ok (m, seps) -> ascending energies -> 0 < p < 1 ->
    nth_error energies k = Some e1 -> e1 <= e -> ~ cone (mean resps e1) seps 70 0 ->
    (forall e2, nth_error energies (S k) = Some e2 -> e < e2 /\ ~ cone (mean resps e2) seps 70 0) ->
    exists a, 0 < a < 70 /\ integral seps m a e = Ok p.
  Proof.
    intros cur resps energies m seps k e1 e p HS HB AE Hp Hk He W1 W2. destruct (shared_built _ _ _ _ _ HS HB) as (G & L & Bt).
    assert (L2 : (2 <= length seps)%nat) by lia.
    pose proof (nth_error_nth energies k 0 Hk) as Ek. subst e1. assert (Hlk : (k < length energies)%nat) by (apply nth_error_Some; congruence).
    assert (CW := cone_whole aeff_exposure psf_exposure resps energies seps 70 G L2).
    apply (containment aeff_exposure psf_exposure resps energies seps 70 G L2 m Bt AE k); try assumption.
    - intros Hs. apply W2. now apply nth_error_nth'.
    - intros Z. apply W1. pose proof (CW k) as Q. rewrite Z in Q. exact Q.
    - intros Hs Z. apply (proj2 (W2 _ (nth_error_nth' energies 0 Hs))). pose proof (CW (S k)) as Q. rewrite Z in Q. exact Q.
  Qed.

  (** The derivative with respect to the angle is that of the broken line
      through the written values at the grid energy at or below the requested
      one; angles and energies off the grid are refused. *)
  Theorem C66_derivative : forall cur resps energies m seps, shared cur -> build cur resps energies = Ok (m, seps) -> ascending energies ->
    (forall a e, a < 0 \/ 70 <= a -> derivative seps m a e = Throw) /\
    (forall e0 e a, nth_error energies 0 = Some e0 -> e < e0 -> derivative seps m a e = Throw) /\
    (forall lines k e1 e i s1 s2 a, write seps m = Ok lines ->
       nth_error energies k = Some e1 -> e1 <= e -> (forall e2, nth_error energies (S k) = Some e2 -> e < e2) ->
       nth_error seps i = Some s1 -> nth_error seps (S i) = Some s2 -> s1 < a < s2 ->
       exists d, derivative seps m a e = Ok d /\
         is_derive (broken_line (map fst lines) (map (fun l => nth k (snd l) 0) lines)) a d).
  Proof.
    intros cur resps energies m seps HS HB AE. destruct (shared_built _ _ _ _ _ HS HB) as (G & L & Bt).
    assert (L2 : (2 <= length seps)%nat) by lia. pose proof (grid_asc _ _ G) as GA.
    assert (N0 : seps <> []) by (intros ->; simpl in L; discriminate L).
    destruct (C66_written _ _ _ _ _ HS HB) as (g & Hw & _).
    destruct Bt as [HE HL HR HPL HP]. unfold derivative. rewrite HE.
    assert (UB : forall e, exists u, std_upper_bound energies e = Ok u).
    { intros e. destruct (EvtProofs.ub_ok energies e (ascending_nondecreasing _ AE)) as (u & E & _). exists u. exact E. }
    split; [|split].
    - intros a e Ha. destruct (UB e) as (u & Eu). destruct Ha as [Ha|Ha].
      + rewrite (ub_below seps a GA N0) by (rewrite (smin_nth seps 70 G); exact Ha). cbn [obind]. rewrite Eu. reflexivity.
      + rewrite (ub_at seps a (length seps - 1) GA) by (lia || (rewrite (smax_nth seps 70 G); lra) || (intros; lia)).
        cbn [obind]. rewrite Eu. cbn [obind]. rewrite Nat.leb_refl. reflexivity.
    - intros e0 e a H0 He. pose proof (nth_error_nth energies 0 0 H0) as E0. subst e0.
      destruct (EvtProofs.ub_ok seps a (ascending_nondecreasing _ GA)) as (w & Ew & _). rewrite Ew. cbn [obind].
      rewrite (ub_below energies e AE) by (assumption || (intros ->; discriminate H0)). cbn [obind]. destruct w; [reflexivity|]. destruct (_ <=? _)%nat; reflexivity.
    - intros lines k e1 e i s1 s2 a Hw' Hk He He2 Hi1 Hi2 Ha.
      rewrite Hw in Hw'. injection Hw' as <-.
      assert (Hlk : (k < length energies)%nat) by (apply nth_error_Some; congruence).
      assert (Hi : (S i < length seps)%nat) by (apply nth_error_Some; congruence).
      pose proof (nth_error_nth energies k 0 Hk) as Ek. subst e1.
      pose proof (nth_error_nth seps i 0 Hi1) as Es1. pose proof (nth_error_nth seps (S i) 0 Hi2) as Es2.
      rewrite (ub_at seps a i GA) by (lia || lra). cbn [obind].
      rewrite (ub_at energies e k AE Hlk He) by (intros Hs; apply He2; now apply nth_error_nth'). cbn [obind].
      destruct (Nat.leb_spec (length seps - 1) i); [lia|].
      assert (Hidx : (k * length seps + (i + 1) < length energies * length seps)%nat) by nia.
      rewrite (vec_at_ok _ (k * length seps + i + 1) 0) by (rewrite HL; lia). rewrite (vec_at_ok _ (k * length seps + i) 0) by (rewrite HL; lia). cbn [obind].
      rewrite (vec_get_ok seps (i + 1) 0) by lia. rewrite (vec_get_ok seps i 0) by lia. cbn [obind].
      replace (i + 1)%nat with (S i) by lia. rewrite Es1, Es2. destruct (Reqb_spec s1 s2); [lra|].
      eexists. split; [reflexivity|].
      rewrite !map_map. cbn [fst snd]. rewrite map_id.
      replace (k * length seps + i + 1)%nat with (k * length seps + S i)%nat by lia.
      assert (W : forall j, (j < length seps)%nat -> nth (k * length seps + j) (m_psfValues m) 0 = g k (nth j seps 0)).
      { intros j Hj. unfold write in Hw. rewrite HE in Hw.
        assert (Hrow : nth_error (map (fun s => (s, map (fun k => g k s) (seq 0 (length energies)))) seps) j = 
           Some (nth j seps 0, map (fun k => nth (k * length seps + j) (m_psfValues m) 0) (seq 0 (length energies)))).
        { rewrite (mfold_push _ (fun j => (nth j seps 0, map (fun k => nth (k * length seps + j) (m_psfValues m) 0) (seq 0 (length energies))))) in Hw.
          - injection Hw as Hw. cbn [app] in Hw. rewrite <- Hw. rewrite nth_error_map, (nth_error_nth' _ 0%nat) by (now rewrite seq_length).
            rewrite seq_nth by exact Hj. reflexivity.
          - intros acc j' Hj'. apply in_seq in Hj'. rewrite (vec_get_ok seps j' 0) by lia. cbn [obind].
            rewrite (mfold_push _ (fun k => nth (k * length seps + j') (m_psfValues m) 0)); [reflexivity|].
            intros acc' k' Hk'. apply in_seq in Hk'. assert ((k' * length seps + j' < length energies * length seps)%nat) by nia.
            rewrite (vec_at_ok _ (k' * length seps + j') 0) by (rewrite HL; lia). reflexivity. }
        rewrite nth_error_map, (nth_error_nth' seps 0 Hj) in Hrow. cbn [option_map] in Hrow. injection Hrow as Hrow.
        apply (f_equal (fun l => nth k l 0)) in Hrow.
        rewrite (nth_mapseq (fun k => g k (nth j seps 0)) _ k 0 Hlk) in Hrow.
        rewrite (nth_mapseq (fun k => nth (k * length seps + j) (m_psfValues m) 0) _ k 0 Hlk) in Hrow. now symmetry. }
      rewrite !W by lia. rewrite Es1, Es2.
      set (ys := map (fun x => nth k (map (fun k0 => g k0 x) (seq 0 (length energies))) 0) seps).
      assert (Hys : forall j, (j < length seps)%nat -> nth j ys 0 = g k (nth j seps 0)).
      { intros j Hj. unfold ys. set (hh := fun x => nth k (map (fun k0 => g k0 x) (seq 0 (length energies))) 0).
        rewrite (nth_indep _ 0 (hh 0)) by (now rewrite map_length). rewrite (map_nth hh). unfold hh. now apply (nth_mapseq (fun k0 => g k0 (nth j seps 0))). }
      apply (is_derive_ext_loc (line s1 s2 (g k s1) (g k s2))).
      + assert (Hd : 0 < Rmin (a - s1) (s2 - a)) by (apply Rmin_glb_lt; lra).
        exists (mkposreal _ Hd). intros y Hy. unfold ball in Hy. simpl in Hy. unfold AbsRing_ball, abs, minus, plus, opp in Hy. simpl in Hy.
        apply Rabs_def2 in Hy. pose proof (Rmin_l (a - s1) (s2 - a)). pose proof (Rmin_r (a - s1) (s2 - a)).
        symmetry. rewrite (broken_line_at seps ys i y GA); [|unfold ys; now rewrite map_length|exact Hi|rewrite Es1, Es2; lra].
        rewrite Es1, Es2, !Hys, Es1, Es2 by lia. reflexivity.
      + unfold line. auto_derive; [exact I|]. field. lra.
  Qed.

  (** Outside the energy range or beyond the last separation the value is
      zero; elsewhere it is the bilinear interpolation of the table. *)
  Theorem C66_value : forall cur resps energies m seps, shared cur -> build cur resps energies = Ok (m, seps) ->
    (energies = [] -> forall e t, value bilinear seps m e t = Throw) /\
    (forall e0 e1 e t, nth_error energies 0 = Some e0 -> nth_error energies (length energies - 1) = Some e1 ->
       (e < e0 \/ e1 < e \/ 70 < t -> value bilinear seps m e t = Ok 0) /\
       (e0 <= e <= e1 -> t <= 70 -> value bilinear seps m e t = Ok (bilinear energies e seps t (m_psfValues m)))).
  Proof.
    intros cur resps energies m seps HS HB. destruct (shared_built _ _ _ _ _ HS HB) as (G & L & Bt).
    unfold value. rewrite (b_energies _ _ _ _ _ _ Bt). split; [intros ->; reflexivity|].
    intros e0 e1 e t H0 H1. destruct energies as [|x l]; [discriminate H0|]. injection H0 as ->.
    rewrite back_ok by discriminate. rewrite (nth_error_nth _ _ 0 H1). cbn [obind].
    rewrite back_ok by (intros ->; discriminate L). rewrite (smax_nth seps 70 G). cbn [obind]. split.
    - intros Hd. destruct (Rltb_spec e e0); [reflexivity|]. destruct (Rltb_spec e1 e); [reflexivity|]. cbn [orb]. destruct (Rltb_spec 70 t); [reflexivity|lra].
    - intros He Ht. destruct (Rltb_spec e e0); [lra|]. destruct (Rltb_spec e1 e); [lra|]. cbn [orb]. destruct (Rltb_spec 70 t); [lra|reflexivity].
  Qed.

  (** An energy above the grid is not refused, although one below is: the
      answer is that of the last energy. *)
  Theorem C66_high_refuted : forall cur resps energies m seps e1 e a, shared cur -> build cur resps energies = Ok (m, seps) -> ascending energies ->
    nth_error energies (length energies - 1) = Some e1 -> e1 < e ->
    integral seps m a e = integral seps m a e1 /\ integral seps m a e <> Throw.
  Proof.
    intros cur resps energies m seps e1 e a HS HB AE H1 He. destruct (shared_built _ _ _ _ _ HS HB) as (G & L & Bt).
    pose proof (nth_error_nth energies _ 0 H1) as E1. assert (Hne : energies <> []) by (intros ->; discriminate H1).
    assert (L2 : (2 <= length seps)%nat) by lia.
    pose proof (integral_top aeff_exposure psf_exposure resps energies seps 70 G L2 m Bt AE e a Hne ltac:(rewrite E1; lra)) as Q. rewrite E1 in Q. split; [exact Q|].
    assert (Hn : (length energies - 1 < length energies)%nat) by (destruct energies; [congruence|simpl; lia]).
    assert (H0 : nth 0 energies 0 <= e).
    { destruct (Nat.eq_dec 0 (length energies - 1)) as [Z|Z]; [rewrite Z, E1; lra|]. pose proof (ascending_nth energies AE 0%nat (length energies - 1)%nat ltac:(lia) Hn) as Q0; rewrite E1 in Q0. lra. }
    destruct (Rlt_le_dec a 0) as [Ha|Ha]; [rewrite (integral_beyond aeff_exposure psf_exposure resps energies seps 70 G L2 m Bt AE e a Hne H0 ltac:(lra)); discriminate|].
    destruct (Rle_lt_dec 70 a) as [Hb|Hb]; [rewrite (integral_beyond aeff_exposure psf_exposure resps energies seps 70 G L2 m Bt AE e a Hne H0 ltac:(lra)); discriminate|].
    destruct (sep_interval seps 70 G L2 a) as (j & Hj & Hja); [lra|].
    rewrite (integral_ok aeff_exposure psf_exposure resps energies seps 70 G L2 m Bt AE (length energies - 1) j e a Hn ltac:(rewrite E1; lra) ltac:(intros; lia) Hj Hja). discriminate.
  Qed.

  (** Without exposure the table is zero, the integral is zero up to seventy
      degrees and one from there on: it jumps, and no cone contains any
      fraction strictly between. *)
  Theorem C66_blind_refuted : forall cur resps e0 m seps p a, shared cur -> build cur resps [e0] = Ok (m, seps) ->
    (forall r e, aeff_exposure r e = 0) -> 0 < p < 1 ->
    integral seps m a e0 <> Ok p /\ integral seps m 69 e0 = Ok 0 /\ integral seps m 70 e0 = Ok 1.
  Proof.
    intros cur resps e0 m seps p a HS HB HA Hp. destruct (shared_built _ _ _ _ _ HS HB) as (G & L & Bt).
    assert (L2 : (2 <= length seps)%nat) by lia.
    assert (AE : ascending [e0]) by (intros [|i] s t Hs Ht; [discriminate Ht|destruct i; discriminate Ht]).
    assert (Hm : forall s, mean resps e0 s = 0).
    { intros s. unfold mean_value. destruct (Rlt_dec 0 _) as [H|H]; [|reflexivity]. exfalso. revert H. 
      assert (total (fun r => aeff_exposure r e0) resps = 0) as ->; [|lra]. clear - HA. unfold total. induction resps as [|r l IH]; simpl; [reflexivity|]. rewrite HA, IH. ring. }
    assert (Hz : forall x, 0 <= x < 70 -> integral seps m x e0 = Ok 0).
    { intros x Hx. destruct (sep_interval seps 70 G L2 x Hx) as (j & Hj & Hja).
      rewrite (integral_ok aeff_exposure psf_exposure resps [e0] seps 70 G L2 m Bt AE 0 j) by (simpl; lia || lra).
      unfold held_at. simpl Nat.eqb. cbv iota. f_equal. unfold held.
      assert (Sh : forall s, shape aeff_exposure psf_exposure resps [e0] seps 0 s = 0) by (intros s; unfold shape; cbn [nth]; rewrite Hm; ring).
      assert (Rg : forall s, ring (shape aeff_exposure psf_exposure resps [e0] seps 0) s = 0) by (intros s; unfold ring; rewrite Sh; ring).
      assert (Pc : forall j x, piece (shape aeff_exposure psf_exposure resps [e0] seps 0) seps j x = 0) by (intros; unfold piece, seg_value; rewrite !Rg; unfold Rdiv; ring).
      assert (Nd : forall i, (i < length seps)%nat -> node (shape aeff_exposure psf_exposure resps [e0] seps 0) seps i = 0).
      { induction i as [|i IH]; intros Hi; [reflexivity|]. rewrite node_S by exact Hi. rewrite IH, Pc by lia. ring. }
      rewrite Pc, Nd by lia. ring. }
    assert (Hb : forall x, x < 0 \/ 70 <= x -> integral seps m x e0 = Ok (if Rltb x 0 then 0 else 1)).
    { intros x Hx. apply (integral_beyond aeff_exposure psf_exposure resps [e0] seps 70 G L2 m Bt AE e0 x); [discriminate|simpl; lra|exact Hx]. }
    split; [|split; [apply Hz; lra|rewrite Hb by lra; destruct (Rltb_spec 70 0); [lra|reflexivity]]].
    destruct (Rlt_le_dec a 0) as [Ha|Ha]; [rewrite Hb by lra; destruct (Rltb_spec a 0); intros Q; injection Q; lra|].
    destruct (Rle_lt_dec 70 a) as [Ha'|Ha']; [rewrite Hb by lra; destruct (Rltb_spec a 0); intros Q; injection Q; lra|].
    rewrite Hz by lra. intros Q. injection Q. lra.
  Qed.
End C66.

Print Assumptions C66_build.
Print Assumptions C66_written.
Print Assumptions C66_integral_partial.
Print Assumptions C66_monotone.
Print Assumptions C66_containment.
Print Assumptions C66_derivative.
Print Assumptions C66_value.
Print Assumptions C66_high_refuted.
Print Assumptions C66_blind_refuted.

(** A flat point spread function on two energies: the table does not vanish,
    so there is a radius of 68 per cent containment between the energies. *)
Example C66_case :
  let aeff := fun (_ : unit) (_ : R) => 2 in
  let psf := fun (_ : unit) (_ _ : R) => 2 in
  let bil := fun (_ : list R) (_ : R) (_ : list R) (_ : R) (_ : list R) => 0 in
  exists m seps, shared aeff psf bil [] /\ init aeff psf bil [] [tt] [100; 1000] = Ok (m, seps) /\ ascending [100; 1000] /\
    (forall s, mean_value aeff psf [tt] 100 s = 1) /\
    ~ cone (mean_value aeff psf [tt] 100) seps 70 0 /\ ~ cone (mean_value aeff psf [tt] 1000) seps 70 0 /\
    exists a, 0 < a < 70 /\ integral seps m a 300 = Ok (68 / 100).
Proof.
  intros aeff psf bil.
  destruct (C66_build aeff psf bil [] [tt] [100; 1000] (shared_start _ _ _)) as (m & seps & HB & G & L & _).
  exists m, seps.
  assert (HS : shared aeff psf bil []) by constructor.
  assert (AE : ascending [100; 1000]).
  { intros [|[|i]] s t Hs Ht; [|discriminate Ht|destruct i; discriminate Ht]. injection Hs as <-. injection Ht as <-. lra. }
  assert (M : forall e s, mean_value aeff psf [tt] e s = 1).
  { intros e s. unfold mean_value, total, aeff, psf. simpl. destruct (Rlt_dec 0 (2 + 0)); [field|lra]. }
  assert (NZ : forall e, ~ cone (mean_value aeff psf [tt] e) seps 70 0).
  { intros e Z. assert (L2 : (2 <= length seps)%nat) by lia.
    assert (CN : cone (mean_value aeff psf [tt] e) seps 70 (node (mean_value aeff psf [tt] e) seps (length seps - 1))).
    { rewrite <- (smax_nth seps 70 G) at 1. apply (cone_node _ _ 70); [exact G|lia]. }
    pose proof (cone_unique _ _ _ _ _ Z CN) as E.
    assert (P : forall s, 0 <= mean_value aeff psf [tt] e s) by (intros s; rewrite M; lra).
    assert (Q : node (mean_value aeff psf [tt] e) seps 1 <= node (mean_value aeff psf [tt] e) seps (length seps - 1)) by (eapply node_mono; eauto; lra || lia).
    rewrite node_S in Q by lia. change (node (mean_value aeff psf [tt] e) seps 0) with 0 in Q.
    assert (0 < piece (mean_value aeff psf [tt] e) seps 0 (nth 1 seps 0)); [|lra].
    pose proof (ascending_nth seps (grid_asc _ _ G) 0 1 ltac:(lia) ltac:(lia)) as A1. rewrite (smin_nth seps 70 G) in A1.
    assert (A2 : nth 1 seps 0 <= 70).
    { rewrite <- (smax_nth seps 70 G). left. apply ascending_nth; [exact (grid_asc _ _ G)|lia|lia]. }
    unfold piece, ring, seg_value. rewrite !M. rewrite (smin_nth seps 70 G).
    assert (D0 : degrees 0 = 0) by (unfold degrees; field). rewrite D0, sin_0.
    assert (D1 : 0 < degrees (nth 1 seps 0)) by (pose proof (degrees_lt _ _ A1) as D2; rewrite D0 in D2; exact D2).
    pose proof PI_RGT_0.
    assert (S1 : 0 < sin (degrees (nth 1 seps 0))).
    { assert (0 <= (70 - nth 1 seps 0) * PI) by (apply Rmult_le_pos; lra). apply sin_gt_0; [exact D1|]. unfold degrees. lra. }
    set (t := degrees (nth 1 seps 0)) in *. 
    replace ((2 * PI * 1 * sin t - 2 * PI * 1 * 0) / (t - 0) * (t * t - 0 * 0) / 2 + (2 * PI * 1 * 0 - 0 * ((2 * PI * 1 * sin t - 2 * PI * 1 * 0) / (t - 0))) * (t - 0)) with (PI * sin t * t) by (field; lra).
    apply Rmult_lt_0_compat; [|exact D1]. apply Rmult_lt_0_compat; assumption. }
  split; [exact HS|]. split; [exact HB|]. split; [exact AE|]. split; [intros s; apply M|]. split; [apply NZ|]. split; [apply NZ|].
  apply (C66_containment aeff psf bil [] [tt] [100; 1000] m seps 0 100); try assumption; try lra; [reflexivity|apply NZ|].
  intros e2 H. injection H as <-. split; [lra|apply NZ].
Qed.

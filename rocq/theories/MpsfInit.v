(** What the constructor of the averaged point spread function leaves behind. *)
From Coq Require Import Reals List Lia Lra.
From Coquelicot Require Import Coquelicot.
From Verif Require Import Base AccumModel AccumProofs EvtModel MpsfModel MpsfSpec MpsfProofs.
Import ListNotations.
Local Open Scope R_scope.
Local Open Scope list_scope.

Section Init.
  Context {Resp : Type}.
  Variable aeff_exposure : Resp -> R -> R.
  Variable psf_exposure : Resp -> R -> R -> R.
  Variable bilinear : list R -> R -> list R -> R -> list R -> R.
  Variable resps : list Resp.
  Variable energies seps : list R.
  Variable smax : R.
  Hypothesis G : grid seps smax.
  Hypothesis L2 : (2 <= length seps)%nat.

  Notation n := (length seps).
  Notation ne := (length energies).
  Let f (k : nat) : R -> R := mean_value aeff_exposure psf_exposure resps (nth k energies 0).

  Lemma psf_loop_ok : psf_loop psf_exposure resps energies (computeExposure aeff_exposure resps energies) seps =
    Ok (concat (map (fun k => map (f k) seps) (seq 0 ne))).
  Proof.
    unfold psf_loop. rewrite (mfold_rows _ (fun k => map (f k) seps)); [reflexivity|].
    intros acc k Hk. apply in_seq in Hk.
    rewrite (mfold_push _ (fun j => f k (nth j seps 0))).
    - f_equal. f_equal. apply nth_ext with (d := 0) (d' := 0); [now rewrite !map_length, seq_length|].
      intros j Hj. rewrite map_length, seq_length in Hj. rewrite (nth_mapseq (fun j => f k (nth j seps 0)) n j 0 Hj).
      rewrite (nth_indep (map (f k) seps) 0 (f k 0)) by (now rewrite map_length). now rewrite map_nth.
    - intros acc' j Hj. apply in_seq in Hj. rewrite (vec_get_ok seps j 0) by lia. rewrite (vec_get_ok energies k 0) by lia. cbn [obind].
      unfold computeExposure. rewrite (vec_get_ok _ k 0) by (rewrite map_length; lia). cbn [obind].
      rewrite (nth_indep _ 0 (fold_left (fun v r => v + aeff_exposure r 0) resps 0)) by (rewrite map_length; lia).
      rewrite (map_nth (fun e => fold_left (fun v r => v + aeff_exposure r e) resps 0)).
      rewrite (fold_left_total (fun r => aeff_exposure r (nth k energies 0))).
      rewrite (fold_left_total (fun r => psf_exposure r (nth j seps 0) (nth k energies 0))). rewrite !Rplus_0_l.
      unfold f, mean_value, Rltb. destruct (Rlt_dec 0 _); reflexivity.
  Qed.

  (** Stored value at energy [k], separation [j], in a flat array. *)
  Definition row_is (psf : list R) (k : nat) (g : R -> R) : Prop :=
    forall j, (j < n)%nat -> nth (k * n + j) psf 0 = g (nth j seps 0).

  Lemma partial_row_ok psf k g : length psf = (ne * n)%nat -> (k < ne)%nat -> row_is psf k g ->
    partial_row seps psf k = Ok (map (node g seps) (seq 0 n)).
  Proof.
    intros HL Hk HR. unfold partial_row.
    match goal with |- mfold ?st _ _ = _ => set (step := st) end.
    assert (Q : forall m, (m < n)%nat -> mfold step (seq 0 m) [0] = Ok (map (node g seps) (seq 0 (S m)))).
    { induction m as [|m IH]; intros Hm; [reflexivity|].
      rewrite seq_S, mfold_app, IH by lia. cbn [obind]. cbn [mfold].
      change (Nat.add 0 m) with m. unfold step at 1.
      assert (Hidx : (k * n + (m + 1) < ne * n)%nat) by nia.
      rewrite (vec_at_ok seps m 0) by lia. rewrite (vec_at_ok seps (m + 1) 0) by lia. 
      rewrite (vec_at_ok psf (k * n + m) 0) by lia. rewrite (vec_at_ok psf (k * n + m + 1) 0) by lia. cbn [obind].
      rewrite segment_ok.
      2:{ rewrite !rad_degrees. apply degrees_lt. replace (m + 1)%nat with (S m) by lia. apply ascending_nth; [exact (grid_asc _ _ G)|lia|lia]. }
      cbn [obind]. rewrite back_ok.
      2:{ intros E. apply (f_equal (@length R)) in E. rewrite map_length, seq_length in E. discriminate E. }
      rewrite map_length, seq_length. replace (S m - 1)%nat with m by lia.
      rewrite (nth_mapseq (node g seps) (S m) m 0) by lia. cbn [obind].
      f_equal. rewrite (seq_S (S m) 0), map_app. f_equal. simpl map. f_equal.
      rewrite node_S by lia. f_equal. unfold piece, ring. rewrite !rad_degrees.
      replace (k * n + m + 1)%nat with (k * n + S m)%nat by lia. replace (m + 1)%nat with (S m) by lia.
      rewrite (HR m) by lia. rewrite (HR (S m)) by lia. reflexivity. }
    rewrite Q by lia. replace (S (n - 1)) with n by lia. reflexivity.
  Qed.

  Lemma normalise_row_ok psf partial k : length psf = (ne * n)%nat -> (k < ne)%nat -> length partial = n ->
    exists psf' partial', normalise_row seps k psf partial = Ok (psf', partial') /\
      length psf' = length psf /\ length partial' = n /\
      (forall i, nth i psf' 0 = if ((k * n <=? i) && (i <? k * n + n))%nat%bool then nth i psf 0 / nth (n - 1) partial 0 else nth i psf 0) /\
      (forall i, (i < n)%nat -> nth i partial' 0 = nth i partial 0 / nth (n - 1) partial 0).
  Proof.
    intros HL Hk HP. unfold normalise_row. set (T := nth (n - 1) partial 0).
    match goal with |- exists _ _, mfold ?st _ _ = _ /\ _ => set (step := st) end.
    assert (Q : forall m, (m <= n)%nat -> exists psf' partial', mfold step (seq 0 m) (psf, partial) = Ok (psf', partial') /\
      length psf' = length psf /\ length partial' = n /\
      (forall i, nth i psf' 0 = if ((k * n <=? i) && (i <? k * n + m))%nat%bool then nth i psf 0 / T else nth i psf 0) /\
      (forall i, (i < n)%nat -> nth i partial' 0 = if (i <? m)%nat then nth i partial 0 / T else nth i partial 0)).
    { induction m as [|m IH]; intros Hm.
      - exists psf, partial. split; [reflexivity|]. split; [reflexivity|]. split; [exact HP|]. split.
        + intros i. destruct (Nat.leb_spec (k * n) i); destruct (Nat.ltb_spec i (k * n + 0)); simpl; try reflexivity; lia.
        + intros i _. reflexivity.
      - destruct IH as (ps & pa & E & L1 & L3 & A & B); [lia|].
        rewrite seq_S, mfold_app, E. cbn [obind]. cbn [mfold]. change (Nat.add 0 m) with m.
        assert (K : step (ps, pa) m = obind (back pa) (fun t => obind (vec_at ps (k * n + m)) (fun p =>
          obind (back pa) (fun t' => obind (vec_get pa m) (fun q => obind (vec_set pa m (q / t')) (fun pa' => Ok (upd ps (k * n + m) (p / t), pa'))))))) by reflexivity.
        rewrite K. clear K.
        assert (Hidx : (k * n + m < ne * n)%nat) by nia.
        assert (Hne : pa <> []) by (intros ->; simpl in L3; lia).
        rewrite (back_ok pa Hne). cbn [obind]. rewrite (vec_at_ok ps (k * n + m) 0) by lia. cbn [obind].
        rewrite (vec_get_ok pa m 0) by lia. cbn [obind].
        rewrite vec_set_ok by lia. cbn [obind].
        rewrite L3. rewrite (B (n - 1)%nat) by lia. destruct (Nat.ltb_spec (n - 1) m); [lia|]. fold T.
        eexists _, _. split; [reflexivity|]. split; [now rewrite upd_length|]. split; [now rewrite upd_length|]. split.
        + intros i. destruct (Nat.eq_dec i (k * n + m)) as [->|Hi].
          * rewrite nth_upd_eq by lia. rewrite A. 
            destruct (Nat.leb_spec (k * n) (k * n + m)); [|lia]. destruct (Nat.ltb_spec (k * n + m) (k * n + m)); [lia|].
            destruct (Nat.ltb_spec (k * n + m) (k * n + S m)); [|lia]. reflexivity.
          * rewrite nth_upd_neq by lia. rewrite A. destruct (Nat.leb_spec (k * n) i); simpl; [|reflexivity].
            destruct (Nat.ltb_spec i (k * n + m)); destruct (Nat.ltb_spec i (k * n + S m)); try reflexivity; lia.
        + intros i Hi. destruct (Nat.eq_dec i m) as [->|Hne'].
          * rewrite nth_upd_eq by lia. rewrite (B m) by lia. destruct (Nat.ltb_spec m m); [lia|]. destruct (Nat.ltb_spec m (S m)); [reflexivity|lia].
          * rewrite nth_upd_neq by lia. rewrite (B i) by lia. destruct (Nat.ltb_spec i m); destruct (Nat.ltb_spec i (S m)); try reflexivity; lia. }
    destruct (Q n (le_n _)) as (ps & pa & E & L1 & L3 & A & B).
    exists ps, pa. split; [exact E|]. split; [exact L1|]. split; [exact L3|]. split; [exact A|].
    intros i Hi. rewrite (B i Hi). destruct (Nat.ltb_spec i n); [reflexivity|lia].
  Qed.

  (** The row after normalisation. *)
  Definition whole (k : nat) : R := node (f k) seps (n - 1).
  Definition scale (k : nat) : R := if Req_EM_T (whole k) 0 then 1 else / whole k.
  Definition shape (k : nat) : R -> R := fun x => f k x * scale k.

  Lemma map_node_nth g i : (i < n)%nat -> nth i (map (node g seps) (seq 0 n)) 0 = node g seps i.
  Proof. intros H. now apply (nth_mapseq (node g seps) n i 0). Qed.

  Lemma partials_ok psf : length psf = (ne * n)%nat -> (forall k, (k < ne)%nat -> row_is psf k (f k)) ->
    exists psf' partials, computePartialIntegrals energies seps psf = Ok (psf', partials) /\
      length psf' = (ne * n)%nat /\ length partials = ne /\
      (forall k, (k < ne)%nat -> row_is psf' k (shape k)) /\
      (forall k, (k < ne)%nat -> length (nth k partials []) = n /\ forall i, (i < n)%nat -> nth i (nth k partials []) 0 = node (shape k) seps i).
  Proof.
    intros HL HR. unfold computePartialIntegrals.
    match goal with |- exists _ _, mfold ?st _ _ = _ /\ _ => set (step := st) end.
    assert (Q : forall m, (m <= ne)%nat -> exists psf' partials, mfold step (seq 0 m) (psf, []) = Ok (psf', partials) /\
      length psf' = (ne * n)%nat /\ length partials = m /\
      (forall k, (k < ne)%nat -> row_is psf' k (if (k <? m)%nat then shape k else f k)) /\
      (forall k, (k < m)%nat -> length (nth k partials []) = n /\ forall i, (i < n)%nat -> nth i (nth k partials []) 0 = node (shape k) seps i)).
    { induction m as [|m IH]; intros Hm.
      - exists psf, []. split; [reflexivity|]. split; [exact HL|]. split; [reflexivity|]. split; [exact HR|]. intros k Hk; lia.
      - destruct IH as (ps & pas & E & L1 & L3 & A & B); [lia|].
        rewrite seq_S, mfold_app, E. cbn [obind]. cbn [mfold]. change (Nat.add 0 m) with m.
        assert (Am : row_is ps m (f m)).
        { pose proof (A m ltac:(lia)) as Am. destruct (Nat.ltb_spec m m); [lia|]. exact Am. }
        assert (K : step (ps, pas) m = obind (partial_row seps ps m) (fun partial => obind (back partial) (fun t =>
          if Reqb t 0 then Ok (ps, pas ++ [partial]) else obind (normalise_row seps m ps partial) (fun pp => Ok (fst pp, pas ++ [snd pp]))))) by reflexivity.
        rewrite K. clear K. rewrite (partial_row_ok ps m (f m) L1 ltac:(lia) Am). cbn [obind].
        rewrite back_ok.
        2:{ intros Z. apply (f_equal (@length R)) in Z. rewrite map_length, seq_length in Z. simpl in Z; lia. }
        rewrite map_length, seq_length. rewrite map_node_nth by lia. cbn [obind]. fold (whole m).
        destruct (Reqb_spec (whole m) 0) as [Hz|Hz].
        + cbn [obind]. assert (Hsh : forall x, shape m x = f m x).
          { intros x. unfold shape, scale. destruct (Req_EM_T (whole m) 0); [ring|contradiction]. }
          assert (Hno : forall i, (i < n)%nat -> node (shape m) seps i = node (f m) seps i).
          { intros i Hi. unfold shape. rewrite node_scale by exact Hi. unfold scale. destruct (Req_EM_T (whole m) 0); [ring|contradiction]. }
          eexists _, _. split; [reflexivity|]. split; [exact L1|]. split; [rewrite app_length; simpl; lia|]. split.
          * intros k Hk j Hj. rewrite (A k Hk j Hj). destruct (Nat.ltb_spec k m); destruct (Nat.ltb_spec k (S m)); try reflexivity; try lia.
            assert (k = m) by lia. subst k. symmetry. apply Hsh.
          * intros k Hk. destruct (Nat.eq_dec k m) as [->|Hkm].
            -- rewrite app_nth2 by lia. rewrite L3, Nat.sub_diag. simpl nth. split; [now rewrite map_length, seq_length|].
               intros i Hi. rewrite map_node_nth by exact Hi. symmetry. now apply Hno.
            -- rewrite app_nth1 by lia. apply B. lia.
        + destruct (normalise_row_ok ps (map (node (f m) seps) (seq 0 n)) m L1 ltac:(lia)) as (ps2 & pa2 & E2 & M1 & M2 & C & D); [now rewrite map_length, seq_length|].
          rewrite E2. cbn [obind]. rewrite map_node_nth in C by lia. fold (whole m) in C.
          eexists _, _. split; [reflexivity|]. split; [cbn [fst]; now rewrite M1|]. split; [rewrite app_length; simpl; lia|]. split.
          * intros k Hk j Hj. rewrite C.
            destruct (Nat.leb_spec (m * n) (k * n + j)); destruct (Nat.ltb_spec (k * n + j) (m * n + n)); simpl andb; cbv iota.
            -- assert (k = m) by nia. subst k. rewrite (Am j Hj). destruct (Nat.ltb_spec m (S m)); [|lia].
               unfold shape, scale. destruct (Req_EM_T (whole m) 0); [contradiction|]. reflexivity.
            -- rewrite (A k Hk j Hj). assert (m < k)%nat by nia. destruct (Nat.ltb_spec k m); [lia|]. destruct (Nat.ltb_spec k (S m)); [lia|reflexivity].
            -- rewrite (A k Hk j Hj). assert (k < m)%nat by nia. destruct (Nat.ltb_spec k m); [|lia]. destruct (Nat.ltb_spec k (S m)); [reflexivity|lia].
            -- exfalso. nia.
          * intros k Hk. destruct (Nat.eq_dec k m) as [->|Hkm].
            -- rewrite app_nth2 by lia. rewrite L3, Nat.sub_diag. simpl nth. split; [exact M2|].
               intros i Hi. rewrite (D i Hi). rewrite !map_node_nth by lia. fold (whole m).
               unfold shape. rewrite node_scale by exact Hi. unfold scale. destruct (Req_EM_T (whole m) 0); [contradiction|]. reflexivity.
            -- rewrite app_nth1 by lia. apply B. lia. }
    destruct (Q ne (le_n _)) as (ps & pas & E & L1 & L3 & A & B).
    exists ps, pas. split; [exact E|]. split; [exact L1|]. split; [exact L3|]. split; [|exact B].
    intros k Hk. pose proof (A k Hk) as Z. destruct (Nat.ltb_spec k ne); [exact Z|lia].
  Qed.

  (** The state after construction. *)
  Record built (m : mean_psf) : Prop := {
    b_energies : m_energies m = energies;
    b_len : length (m_psfValues m) = (ne * n)%nat;
    b_rows : forall k, (k < ne)%nat -> row_is (m_psfValues m) k (shape k);
    b_plen : length (m_partialIntegrals m) = ne;
    b_partial : forall k, (k < ne)%nat -> length (nth k (m_partialIntegrals m) []) = n /\
      forall i, (i < n)%nat -> nth i (nth k (m_partialIntegrals m) []) 0 = node (shape k) seps i }.

  Lemma value_total m k theta : m_energies m = energies -> (k < ne)%nat -> exists v, value bilinear seps m (nth k energies 0) theta = Ok v.
  Proof.
    intros HE Hk. unfold value. rewrite HE. destruct energies as [|e0 el] eqn:EE; [simpl in Hk; lia|].
    rewrite <- EE in *. rewrite back_ok by congruence. cbn [obind]. destruct (_ || _)%bool; [eauto|].
    rewrite back_ok by (destruct seps; [simpl in L2; lia|congruence]). cbn [obind]. destruct (Rltb _ _); eauto.
  Qed.

  Lemma init_built cur : fill_separations cur = seps ->
    exists m, init aeff_exposure psf_exposure bilinear cur resps energies = Ok (m, seps) /\ built m /\
      m_exposure m = map (fun e => total (fun r => aeff_exposure r e) resps) energies /\
      (forall k e, nth_error energies k = Some e -> exists v, nth_error (m_psfPeakValues m) k = Some v /\ value bilinear seps m e 0 = Ok v).
  Proof.
    intros HC. unfold init. rewrite HC. rewrite psf_loop_ok. cbn [obind].
    set (psf := concat (map (fun k => map (f k) seps) (seq 0 ne))).
    destruct (partials_ok psf) as (ps & pas & E & L1 & L3 & A & B).
    { unfold psf. apply concat_rows_length. intros k. now rewrite map_length. }
    { intros k Hk j Hj. unfold psf. rewrite (nth_concat_rows (fun k => map (f k) seps) n ne k j 0); [|intros; now rewrite map_length|exact Hk|exact Hj].
      rewrite (nth_indep (map (f k) seps) 0 (f k 0)) by (now rewrite map_length). now rewrite map_nth. }
    rewrite E. cbn [obind]. cbn [fst snd].
    set (pkv := fun k => match value bilinear seps (mkMeanPsf energies ps [] pas (computeExposure aeff_exposure resps energies)) (nth k energies 0) 0 with Ok v => v | _ => 0 end).
    rewrite (mfold_push _ pkv).
    2:{ intros acc k Hk. apply in_seq in Hk. rewrite (vec_get_ok energies k 0) by lia. cbn [obind].
      destruct (value_total (mkMeanPsf energies ps [] pas (computeExposure aeff_exposure resps energies)) k 0 eq_refl ltac:(lia)) as (v & Ev).
      assert (Ev' : value bilinear seps (mkMeanPsf energies ps acc pas (computeExposure aeff_exposure resps energies)) (nth k energies 0) 0 = Ok v) by exact Ev.
      rewrite Ev'. cbn [obind]. unfold pkv. rewrite Ev. reflexivity. }
    cbn [obind app]. eexists. split; [reflexivity|]. split; [|split].
    - constructor; cbn; auto.
    - cbn. unfold computeExposure. apply map_ext. intros e. rewrite (fold_left_total (fun r => aeff_exposure r e)). ring.
    - intros k e He. assert (Hk : (k < ne)%nat) by (apply nth_error_Some; congruence).
      cbn [m_psfPeakValues]. rewrite nth_error_map. rewrite (nth_error_nth' _ 0%nat) by (rewrite seq_length; exact Hk). rewrite seq_nth by exact Hk. cbn [option_map Nat.add].
      eexists. split; [reflexivity|]. apply (nth_error_nth energies k 0) in He. subst e.
      destruct (value_total (mkMeanPsf energies ps [] pas (computeExposure aeff_exposure resps energies)) k 0 eq_refl Hk) as (v & Ev).
      unfold pkv. rewrite Ev. exact Ev.
  Qed.
End Init.

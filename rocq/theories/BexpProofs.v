(** Proofs about the table of exposures. *)
From Coq Require Import Reals List Lia Lra.
From Flocq Require Import Core.
From Verif Require Import Base AccumModel AccumProofs EgridModel BexpModel BexpSpec.
Import ListNotations.
Local Open Scope R_scope.
Local Open Scope list_scope.

Lemma vec_at_ok {A} (l : list A) i d : (i < length l)%nat -> vec_at l i = Ok (nth i l d).
Proof. intros H. unfold vec_at. rewrite (nth_error_nth' l d H). reflexivity. Qed.

(** ** Looking for an energy *)

Lemma find_from_some (p : R -> bool) xx : forall i k, find_from p xx i = Some k ->
  (i <= k)%nat /\ (exists y, nth_error xx (k - i) = Some y /\ p y = true) /\ forall j y, (j < k - i)%nat -> nth_error xx j = Some y -> p y = false.
Proof.
  induction xx as [|a l IH]; intros i k H; simpl in H; [discriminate|]. destruct (p a) eqn:E.
  - injection H as <-. split; [lia|]. rewrite Nat.sub_diag. split; [exists a; auto|]. intros j y Hj; lia.
  - apply IH in H. destruct H as (H1 & (y & H2 & H3) & H4). split; [lia|]. replace (k - i)%nat with (S (k - S i)) by lia. split.
    + exists y. auto.
    + intros [|j] z Hj Hz; [simpl in Hz; injection Hz as <-; exact E|]. simpl in Hz. apply (H4 j z); [lia|exact Hz].
Qed.

Lemma find_from_none (p : R -> bool) xx : forall i, find_from p xx i = None -> forall j y, nth_error xx j = Some y -> p y = false.
Proof.
  induction xx as [|a l IH]; intros i H j y Hy; [destruct j; discriminate|]. simpl in H. destruct (p a) eqn:E; [discriminate|].
  destruct j as [|j]; [simpl in Hy; injection Hy as <-; exact E|]. apply (IH (S i) H j y). exact Hy.
Qed.

Lemma find_from_first (p : R -> bool) xx k : (exists y, nth_error xx k = Some y /\ p y = true) -> (forall j y, (j < k)%nat -> nth_error xx j = Some y -> p y = false) ->
  forall i, find_from p xx i = Some (i + k)%nat.
Proof.
  revert k. induction xx as [|a l IH]; intros k (y & Hy & Py) Hb i; [destruct k; discriminate|]. simpl. destruct k as [|k].
  - simpl in Hy. injection Hy as ->. rewrite Py. f_equal. lia.
  - rewrite (Hb 0%nat a ltac:(lia) eq_refl). rewrite (IH k); [f_equal; lia|exists y; auto|]. intros j z Hj Hz. apply (Hb (S j) z); [lia|exact Hz].
Qed.

Lemma find_exact xx x tol k : first_with (fun y => y = x) xx k -> findNearest xx x tol = Ok k.
Proof.
  intros ((y & Hy & ->) & Hb). unfold findNearest.
  rewrite (find_from_first (fun a => Reqb a x) xx k); [reflexivity| |].
  - exists x. split; [exact Hy|]. destruct (Reqb_spec x x); [reflexivity|congruence].
  - intros j z Hj Hz. destruct (Reqb_spec z x) as [->|]; [|reflexivity]. exfalso. exact (Hb j x Hj Hz eq_refl).
Qed.

Lemma find_close xx x tol k : x <> 0 -> none_with (fun y => y = x) xx -> first_with (close tol x) xx k -> findNearest xx x tol = Ok k.
Proof.
  intros Hx Hn ((y & Hy & Cy) & Hb). unfold findNearest.
  destruct (find_from (fun a => Reqb a x) xx 0) as [k'|] eqn:E.
  - exfalso. apply find_from_some in E. destruct E as (_ & (z & Hz & Pz) & _). destruct (Reqb_spec z x); [|discriminate]. exact (Hn _ _ Hz e).
  - destruct (Reqb_spec x 0) as [|_]; [contradiction|].
    rewrite (find_from_first (fun a => Rltb (fracDiff x a) tol) xx k); [reflexivity| |].
    + exists y. split; [exact Hy|]. destruct (Rltb_spec (fracDiff x y) tol); [reflexivity|]. exfalso. unfold close, fracDiff in *. lra.
    + intros j z Hj Hz. destruct (Rltb_spec (fracDiff x z) tol) as [Hl|]; [|reflexivity]. exfalso. exact (Hb j z Hj Hz Hl).
Qed.

Lemma find_none xx x tol : none_with (fun y => y = x) xx -> (x <> 0 -> none_with (close tol x) xx) -> findNearest xx x tol = Throw.
Proof.
  intros Hn Hc. unfold findNearest.
  destruct (find_from (fun a => Reqb a x) xx 0) as [k'|] eqn:E.
  - exfalso. apply find_from_some in E. destruct E as (_ & (z & Hz & Pz) & _). destruct (Reqb_spec z x); [|discriminate]. exact (Hn _ _ Hz e).
  - destruct (find_from (fun a => if Reqb x 0 then false else Rltb (fracDiff x a) tol) xx 0) as [k'|] eqn:E2; [|reflexivity].
    exfalso. apply find_from_some in E2. destruct E2 as (_ & (z & Hz & Pz) & _). destruct (Reqb_spec x 0) as [|Hx]; [discriminate|].
    destruct (Rltb_spec (fracDiff x z) tol); [|discriminate]. exact (Hc Hx _ _ Hz r).
Qed.

Lemma find_bound xx x tol k : findNearest xx x tol = Ok k -> (k < length xx)%nat.
Proof.
  unfold findNearest. destruct (find_from (fun a => Reqb a x) xx 0) as [k'|] eqn:E.
  - intros H. injection H as <-. apply find_from_some in E. destruct E as (_ & (z & Hz & _) & _). rewrite Nat.sub_0_r in Hz. apply nth_error_Some. congruence.
  - destruct (find_from (fun a => if Reqb x 0 then false else Rltb (fracDiff x a) tol) xx 0) as [k'|] eqn:E2; [|discriminate].
    intros H. injection H as <-. apply find_from_some in E2. destruct E2 as (_ & (z & Hz & _) & _). rewrite Nat.sub_0_r in Hz. apply nth_error_Some. congruence.
Qed.

(** ** Filling the table *)

Section Fill.
  Context {Name Dir Resp : Type}.
  Variable pix2dir : @geometry Name -> R -> R -> option Dir.
  Variable expo : Dir -> Resp -> R -> R.
  Variable resps : list Resp.
  Variable g : @geometry Name.
  Variable energies : list R.
  Variable nx ny : nat.
  Notation ne := (length energies).
  Notation idx k j i := ((k * ny + j) * nx + i)%nat.

  Lemma idx_lt k j i : (i < nx)%nat -> (j < ny)%nat -> (k < ne)%nat -> (idx k j i < nx * ny * ne)%nat.
  Proof.
    intros Hi Hj Hk. assert (k * ny + j + 1 <= ne * ny)%nat by nia.
    assert ((k * ny + j + 1) * nx <= ne * ny * nx)%nat by nia. nia.
  Qed.

  Lemma idx_inj k j i k' j' i' : (i < nx)%nat -> (j < ny)%nat -> (i' < nx)%nat -> (j' < ny)%nat -> idx k j i = idx k' j' i' -> k = k' /\ j = j' /\ i = i'.
  Proof.
    intros Hi Hj Hi' Hj' E.
    assert (k * ny + j = k' * ny + j')%nat by nia. assert (i = i') by nia. assert (k = k') by nia. subst. lia.
  Qed.

  Lemma resp_loop d k indx e (Hk : (k < ne)%nat) (He : e = nth k energies 0) : forall l map, (indx < length map)%nat ->
    mfold (fun map r => obind (vec_at energies k) (fun e => obind (vec_at map indx) (fun v => Ok (upd map indx (v + expo d r e))))) l map =
    Ok (upd map indx (nth indx map 0 + exposure expo l d e)).
  Proof.
    induction l as [|r l IH]; intros map Hm.
    - cbn [mfold]. f_equal. unfold exposure. cbn [fold_right]. rewrite Rplus_0_r.
      apply nth_ext with (d := 0) (d' := 0); [now rewrite upd_length|]. intros n Hn. destruct (Nat.eq_dec n indx) as [->|H]; [now rewrite nth_upd_eq|rewrite nth_upd_neq by lia; reflexivity].
    - cbn [mfold].
      match goal with |- obind ?x _ = _ => assert (K : x = Ok (upd map indx (nth indx map 0 + expo d r e))) end.
      { rewrite (vec_at_ok energies k 0 Hk). cbn [obind]. rewrite (vec_at_ok map indx 0 Hm). cbn [obind]. now rewrite He. }
      rewrite K. cbn [obind]. rewrite IH by (now rewrite upd_length). f_equal. rewrite nth_upd_eq by exact Hm.
      assert (U : forall (m : list R) a b, upd (upd m indx a) indx b = upd m indx b).
      { clear. intros m a b. apply nth_ext with (d := 0) (d' := 0); [now rewrite !upd_length|]. intros n Hn. rewrite !upd_length in Hn.
        destruct (Nat.eq_dec n indx) as [->|H]; [now rewrite !nth_upd_eq by (rewrite ?upd_length; exact Hn)|now rewrite !nth_upd_neq by lia]. }
      rewrite U. f_equal. unfold exposure. cbn [fold_right]. ring.
  Qed.

  Lemma fill_pixel_ok i j d map : (i < nx)%nat -> (j < ny)%nat -> length map = (nx * ny * ne)%nat ->
    exists map', fill_pixel expo resps energies nx ny i j d map = Ok map' /\ length map' = length map /\
      (forall k, (k < ne)%nat -> nth (idx k j i) map' 0 = nth (idx k j i) map 0 + exposure expo resps d (nth k energies 0)) /\
      (forall k j' i', (k < ne)%nat -> (j' < ny)%nat -> (i' < nx)%nat -> (j', i') <> (j, i) -> nth (idx k j' i') map' 0 = nth (idx k j' i') map 0).
  Proof.
    intros Hi Hj HL. unfold fill_pixel.
    match goal with |- exists _, mfold ?st _ _ = _ /\ _ => set (step := st) end.
    assert (Q : forall m, (m <= ne)%nat -> exists map', mfold step (seq 0 m) map = Ok map' /\ length map' = length map /\
      (forall k, (k < ne)%nat -> nth (idx k j i) map' 0 = if (k <? m)%nat then nth (idx k j i) map 0 + exposure expo resps d (nth k energies 0) else nth (idx k j i) map 0) /\
      (forall k j' i', (k < ne)%nat -> (j' < ny)%nat -> (i' < nx)%nat -> (j', i') <> (j, i) -> nth (idx k j' i') map' 0 = nth (idx k j' i') map 0)).
    { induction m as [|m IH]; intros Hm.
      - exists map. split; [reflexivity|]. split; [reflexivity|]. split; [reflexivity|]. reflexivity.
      - destruct IH as (mp & E & L & A & B); [lia|]. rewrite seq_S, mfold_app, E. cbn [obind mfold]. change (Nat.add 0 m) with m.
        assert (K : step mp m = Ok (upd mp (idx m j i) (nth (idx m j i) mp 0 + exposure expo resps d (nth m energies 0)))).
        { unfold step. apply resp_loop; [lia|reflexivity|]. rewrite L, HL. apply idx_lt; [exact Hi|exact Hj|lia]. }
        rewrite K. cbn [obind]. eexists. split; [reflexivity|]. split; [now rewrite upd_length|]. 
        assert (Hb : (idx m j i < length mp)%nat) by (rewrite L, HL; apply idx_lt; [exact Hi|exact Hj|lia]). split.
        + intros k Hk. destruct (Nat.eq_dec k m) as [->|Hne].
          * rewrite nth_upd_eq by exact Hb. rewrite (A m) by lia. destruct (Nat.ltb_spec m m); [lia|]. destruct (Nat.ltb_spec m (S m)); [reflexivity|lia].
          * rewrite nth_upd_neq.
            2:{ intros Z. apply idx_inj in Z; try assumption. lia. }
            rewrite (A k Hk). destruct (Nat.ltb_spec k m); destruct (Nat.ltb_spec k (S m)); try reflexivity; lia.
        + intros k j' i' Hk Hj' Hi' Hne. rewrite nth_upd_neq; [apply B; assumption|]. intros Z. apply idx_inj in Z; try assumption. apply Hne. f_equal; lia. }
    destruct (Q ne (le_n _)) as (mp & E & L & A & B). exists mp. split; [exact E|]. split; [exact L|]. split; [|exact B].
    intros k Hk. rewrite (A k Hk). destruct (Nat.ltb_spec k ne); [reflexivity|lia].
  Qed.

  Definition pixel_value (k j i : nat) : R :=
    pixel_exposure expo resps (pix2dir g (INR (i + 1)) (INR (j + 1))) (nth k energies 0).

  Lemma computeMap_ok : exists map, computeMap pix2dir expo resps g energies nx ny [] = Ok map /\ length map = (nx * ny * ne)%nat /\
    forall k j i, (k < ne)%nat -> (j < ny)%nat -> (i < nx)%nat -> nth (idx k j i) map 0 = pixel_value k j i.
  Proof.
    unfold computeMap. set (map0 := vec_resize [] (nx * ny * ne) 0).
    assert (L0 : length map0 = (nx * ny * ne)%nat) by apply vec_resize_length.
    assert (Z0 : forall n, nth n map0 0 = 0).
    { intros n. unfold map0, vec_resize. rewrite firstn_nil. cbn [app length]. rewrite Nat.sub_0_r.
      clear. generalize (nx * ny * ne)%nat. intros m. revert n. induction m as [|m IH]; intros [|n]; simpl; auto. }
    set (row := fun j => fun map i => match pix2dir g (INR (i + 1)) (INR (j + 1)) with None => Ok map | Some d => fill_pixel expo resps energies nx ny i j d map end).
    assert (Row : forall j map m, (j < ny)%nat -> length map = (nx * ny * ne)%nat -> (m <= nx)%nat ->
      (forall k i, (k < ne)%nat -> (i < nx)%nat -> nth (idx k j i) map 0 = 0) ->
      exists map', mfold (row j) (seq 0 m) map = Ok map' /\ length map' = (nx * ny * ne)%nat /\
        (forall k i, (k < ne)%nat -> (i < nx)%nat -> nth (idx k j i) map' 0 = if (i <? m)%nat then pixel_value k j i else 0) /\
        (forall k j' i, (k < ne)%nat -> (j' < ny)%nat -> (i < nx)%nat -> j' <> j -> nth (idx k j' i) map' 0 = nth (idx k j' i) map 0)).
    { intros j map m Hj HL Hm Hz. induction m as [|m IH].
      - exists map. split; [reflexivity|]. split; [exact HL|]. split; [exact Hz|reflexivity].
      - destruct IH as (mp & E & L & A & B); [lia|]. rewrite seq_S, mfold_app, E. cbn [obind mfold]. change (Nat.add 0 m) with m.
        assert (K : row j mp m = match pix2dir g (INR (m + 1)) (INR (j + 1)) with None => Ok mp | Some d => fill_pixel expo resps energies nx ny m j d mp end) by reflexivity.
        rewrite K. clear K. destruct (pix2dir g (INR (m + 1)) (INR (j + 1))) as [d|] eqn:D.
        + destruct (fill_pixel_ok m j d mp ltac:(lia) Hj L) as (mp' & E' & L' & A' & B'). rewrite E'. cbn [obind].
          eexists. split; [reflexivity|]. split; [now rewrite L'|]. split.
          * intros k i Hk Hi. destruct (Nat.eq_dec i m) as [->|Hne].
            -- rewrite (A' k Hk). rewrite (A k m Hk Hi). destruct (Nat.ltb_spec m m); [lia|]. destruct (Nat.ltb_spec m (S m)); [|lia].
               unfold pixel_value. rewrite D. cbn [pixel_exposure]. ring.
            -- rewrite (B' k j i Hk Hj Hi) by (intros Z; injection Z; lia). rewrite (A k i Hk Hi). destruct (Nat.ltb_spec i m); destruct (Nat.ltb_spec i (S m)); try reflexivity; lia.
          * intros k j' i Hk Hj' Hi Hne. rewrite (B' k j' i Hk Hj' Hi) by (intros Z; injection Z; lia). now apply B.
        + cbn [obind]. eexists. split; [reflexivity|]. split; [exact L|]. split; [|exact B].
          intros k i Hk Hi. rewrite (A k i Hk Hi). destruct (Nat.ltb_spec i m); destruct (Nat.ltb_spec i (S m)); try reflexivity; try lia.
          assert (i = m) by lia. subst i. unfold pixel_value. rewrite D. reflexivity. }
    match goal with |- exists _, mfold ?st _ _ = _ /\ _ => set (step := st) end.
    assert (Q : forall m, (m <= ny)%nat -> exists map, mfold step (seq 0 m) map0 = Ok map /\ length map = (nx * ny * ne)%nat /\
      forall k j i, (k < ne)%nat -> (j < ny)%nat -> (i < nx)%nat -> nth (idx k j i) map 0 = if (j <? m)%nat then pixel_value k j i else 0).
    { induction m as [|m IH]; intros Hm.
      - exists map0. split; [reflexivity|]. split; [exact L0|]. intros; apply Z0.
      - destruct IH as (mp & E & L & A); [lia|]. rewrite seq_S, mfold_app, E. cbn [obind mfold]. change (Nat.add 0 m) with m.
        destruct (Row m mp nx ltac:(lia) L (le_n _)) as (mp' & E' & L' & A' & B').
        { intros k i Hk Hi. rewrite (A k m i Hk ltac:(lia) Hi). destruct (Nat.ltb_spec m m); [lia|reflexivity]. }
        assert (K : step mp m = mfold (row m) (seq 0 nx) mp) by reflexivity. rewrite K, E'. cbn [obind].
        eexists. split; [reflexivity|]. split; [exact L'|]. intros k j i Hk Hj Hi. destruct (Nat.eq_dec j m) as [->|Hne].
        + rewrite (A' k i Hk Hi). destruct (Nat.ltb_spec i nx); [|lia]. destruct (Nat.ltb_spec m (S m)); [reflexivity|lia].
        + rewrite (B' k j i Hk Hj Hi Hne). rewrite (A k j i Hk Hj Hi). destruct (Nat.ltb_spec j m); destruct (Nat.ltb_spec j (S m)); try reflexivity; lia. }
    destruct (Q ny (le_n _)) as (mp & E & L & A). exists mp. split; [exact E|]. split; [exact L|].
    intros k j i Hk Hj Hi. rewrite (A k j i Hk Hj Hi). destruct (Nat.ltb_spec j ny); [reflexivity|lia].
  Qed.
End Fill.

(** ** Pixel coordinates *)

Lemma trunc_pixel i x : INR i + 1 <= x < INR i + 2 -> Ztrunc (x - 1) = Z.of_nat i.
Proof.
  intros H. pose proof (pos_INR i). rewrite Ztrunc_floor by lra. apply Zfloor_imp. rewrite plus_IZR, <- INR_IZR_INZ. simpl. lra.
Qed.

Lemma trunc_first x : 0 < x < 2 -> Ztrunc (x - 1) = 0%Z.
Proof.
  intros H. destruct (Rle_lt_dec 1 x) as [L|L].
  - rewrite Ztrunc_floor by lra. apply Zfloor_imp. simpl. lra.
  - rewrite Ztrunc_ceil by lra. apply Zceil_imp. simpl. lra.
Qed.

Lemma mean_energies_ok es : es <> [] -> exists out, mean_energies es = Ok out /\ length out = (length es - 1)%nat /\
  forall k a b, nth_error es k = Some a -> nth_error es (S k) = Some b -> nth_error out k = Some (sqrt (a * b)).
Proof.
  intros Hne. unfold mean_energies. destruct es as [|e0 el] eqn:EE; [congruence|]. rewrite <- EE in *. clear EE e0 el.
  match goal with |- context [mfold ?st _ _] => set (step := st) end.
  assert (Q : forall m, (m <= length es - 1)%nat -> exists out, mfold step (seq 0 m) es = Ok out /\ length out = length es /\
    forall k, (k < length es)%nat -> nth k out 0 = if (k <? m)%nat then sqrt (nth k es 0 * nth (S k) es 0) else nth k es 0).
  { induction m as [|m IH]; intros Hm.
    - exists es. split; [reflexivity|]. split; reflexivity.
    - destruct IH as (out & E & L & A); [lia|]. rewrite seq_S, mfold_app, E. cbn [obind mfold]. change (Nat.add 0 m) with m.
      assert (K : step out m = Ok (upd out m (sqrt (nth m out 0 * nth (m + 1) out 0)))).
      { unfold step. rewrite (vec_get_ok out m 0) by lia. cbn [obind]. rewrite (vec_get_ok out (m + 1) 0) by lia. cbn [obind]. apply vec_set_ok. lia. }
      rewrite K. cbn [obind]. eexists. split; [reflexivity|]. split; [now rewrite upd_length|]. intros k Hk.
      destruct (Nat.eq_dec k m) as [->|Hn].
      + rewrite nth_upd_eq by lia. destruct (Nat.ltb_spec m (S m)); [|lia]. rewrite !A by lia. replace (m + 1)%nat with (S m) by lia.
        destruct (Nat.ltb_spec m m); [lia|]. destruct (Nat.ltb_spec (S m) m); [lia|]. reflexivity.
      + rewrite nth_upd_neq by lia. rewrite A by lia. destruct (Nat.ltb_spec k m); destruct (Nat.ltb_spec k (S m)); try reflexivity; lia. }
  destruct (Q (length es - 1)%nat (le_n _)) as (out & E & L & A). rewrite E. cbn [obind].
  assert (Lp : (0 < length es)%nat) by (destruct es; [congruence|simpl; lia]).
  assert (RL : removelast out = firstn (length es - 1) out).
  { rewrite removelast_firstn_len. f_equal. lia. }
  rewrite RL. eexists. split; [reflexivity|]. split; [rewrite firstn_length; lia|].
  intros k a b Ha Hb. assert (Hk : (S k < length es)%nat) by (apply nth_error_Some; congruence).
  assert (F : nth_error (firstn (length es - 1) out) k = nth_error out k).
  { rewrite <- (firstn_skipn (length es - 1) out) at 2. rewrite nth_error_app1; [reflexivity|]. rewrite firstn_length. lia. }
  rewrite F. rewrite (nth_error_nth' out 0) by lia. rewrite A by lia. destruct (Nat.ltb_spec k (length es - 1)); [|lia].
  rewrite (nth_error_nth es k 0 Ha), (nth_error_nth es (S k) 0 Hb). reflexivity.
Qed.

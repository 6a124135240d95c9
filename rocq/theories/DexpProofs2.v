(** Proofs about the computation of exposure maps. *)
From Coq Require Import Reals Lra Psatz.
From Verif Require Import Base AccumModel AccumProofs EvtModel DexpSpec DexpModel DexpProofs.
From Verif Require MpsfProofs PsfuProofs.
Local Open Scope R_scope.

(** A loop that stores values at distinct places. *)
Lemma store_loop {A} (f : list R -> A -> outcome (list R)) (idx : A -> nat) (val : A -> R) (N : nat) l : forall im,
  length im = N -> (forall a, In a l -> (idx a < N)%nat) ->
  (forall im a, In a l -> length im = N -> f im a = Ok (upd im (idx a) (val a))) ->
  NoDup (map idx l) ->
  exists t, mfold f l im = Ok t /\ length t = N /\ (forall a, In a l -> nth (idx a) t 0 = val a) /\
    (forall p, (forall a, In a l -> idx a <> p) -> nth p t 0 = nth p im 0).
Proof.
  induction l as [|a l IH]; intros im HL HI HF HD.
  - exists im. cbn [mfold]. repeat split; auto. intros a [].
  - cbn [mfold]. rewrite HF by (auto; now left). cbn [obind]. inversion HD as [|x y Hn HD']; subst x y.
    destruct (IH (upd im (idx a) (val a))) as (t & E & L & V & O).
    + now rewrite upd_length.
    + intros b Hb. apply HI. now right.
    + intros im' b Hb. apply HF. now right.
    + exact HD'.
    + exists t. split; [exact E|]. split; [exact L|]. split.
      * intros b [<-|Hb]; [|now apply V]. rewrite O.
        -- apply nth_upd_eq. rewrite HL. apply HI. now left.
        -- intros b Hb Eb. apply Hn. rewrite <- Eb. apply in_map, Hb.
      * intros p Hp. rewrite O by (intros b Hb; apply Hp; now right). apply nth_upd_neq. apply Hp. now left.
Qed.

(** Nested loops as one. *)
Lemma mfold_nest {A B S} (g : A -> S -> B -> outcome S) (l : A -> list B) (L : list A) : forall s,
  mfold (fun s a => mfold (g a) (l a) s) L s = mfold (fun s ab => g (fst ab) s (snd ab)) (flat_map (fun a => map (pair a) (l a)) L) s.
Proof.
  induction L as [|a L IH]; intros s; cbn [mfold flat_map]; [reflexivity|]. rewrite mfold_app.
  assert (K : forall bs s, mfold (fun s ab => g (fst ab) s (snd ab)) (map (pair a) bs) s = mfold (g a) bs s).
  { induction bs as [|b bs IHb]; intros s'; cbn [map mfold fst snd]; [reflexivity|]. destruct (g a s' b); cbn [obind]; auto. }
  rewrite K. destruct (mfold (g a) (l a) s); cbn [obind]; auto.
Qed.

Lemma NoDup_pairs {A B} (l : list A) (m : list B) : NoDup l -> NoDup m -> NoDup (flat_map (fun a => map (pair a) m) l).
Proof.
  intros HD HM. induction l as [|a l IH]; cbn [flat_map]; [constructor|]. inversion HD as [|x y Hn HD']; subst x y.
  assert (K : forall l1 l2 : list (A * B), NoDup l1 -> NoDup l2 -> (forall x, In x l1 -> ~ In x l2) -> NoDup (l1 ++ l2)).
  { induction l1 as [|x l1 IH1]; intros l2 D1 D2 D; cbn [app]; [exact D2|]. inversion D1; subst. constructor.
    - rewrite in_app_iff. intros [K|K]; [contradiction|]. apply (D x); [now left|exact K].
    - apply IH1; auto. intros z Hz. apply D. now right. }
  apply K; [|now apply IH|].
  - apply FinFun.Injective_map_NoDup; [|exact HM]. intros x y E. congruence.
  - intros x Hx Hx2. apply in_map_iff in Hx. destruct Hx as (b & <- & _). apply in_flat_map in Hx2. destruct Hx2 as (a' & Ha' & Hb').
    apply in_map_iff in Hb'. destruct Hb' as (b' & E & _). injection E as -> _. contradiction.
Qed.

Lemma NoDup_map_on {A} (f : A -> nat) l : NoDup l -> (forall a b, In a l -> In b l -> f a = f b -> a = b) -> NoDup (map f l).
Proof.
  induction l as [|a l IH]; intros HD HI; cbn [map]; [constructor|]. inversion HD as [|x y Hn HD']; subst x y. constructor.
  - intros K. apply in_map_iff in K. destruct K as (b & E & Hb). apply Hn. rewrite (HI a b); auto; [now left|now right].
  - apply IH; [exact HD'|]. intros b c Hb Hc. apply HI; now right.
Qed.

Lemma idx2 n a b i i' : (i < n)%nat -> (i' < n)%nat -> (a * n + i)%nat = (b * n + i')%nat -> a = b /\ i = i'.
Proof.
  intros Hi Hi' E. assert (a = b) as ->; [|split; [reflexivity|lia]].
  destruct (Nat.lt_trichotomy a b) as [L|[L|L]]; [|exact L|]; exfalso; nia.
Qed.

Lemma idx3 nlat nlon i j k i' j' k' : (i < nlon)%nat -> (i' < nlon)%nat -> (j < nlat)%nat -> (j' < nlat)%nat ->
  ((k * nlat + j) * nlon + i)%nat = ((k' * nlat + j') * nlon + i')%nat -> i = i' /\ j = j' /\ k = k'.
Proof.
  intros Hi Hi' Hj Hj' E. destruct (idx2 nlon _ _ _ _ Hi Hi' E) as [A B]. destruct (idx2 nlat _ _ _ _ Hj Hj' A) as [C D]. auto.
Qed.

Section C.
Variable Dir : Type.
Variable pix : R -> R -> R -> R -> R -> R -> Dir.
Variable expo : Dir -> list R -> list R.
Variable flt : R -> R.

Lemma image_loop (dir : nat -> nat -> Dir) energies nlon nlat ne imin ni jmin nj :
  length energies = ne -> (forall d, length (expo d energies) = ne) -> (ni = 0 \/ imin + ni <= nlon)%nat -> (nj = 0 \/ jmin + nj <= nlat)%nat ->
  exists t, mfold (fun im j =>
           mfold (fun im i =>
             mfold (fun im k =>
               obind (vec_get (expo (dir i j) energies) k) (fun x =>
               obind (vec_at im ((k * nlat + j) * nlon + i)%nat) (fun _ =>
               Ok (upd im ((k * nlat + j) * nlon + i)%nat (flt x)))))
             (seq 0 ne) im)
           (seq imin ni) im)
         (seq jmin nj) (repeat 0 (ne * nlat * nlon)) = Ok t /\ length t = (ne * nlat * nlon)%nat /\
    forall i j k, (i < nlon)%nat -> (j < nlat)%nat -> (k < ne)%nat ->
      ((imin <= i < imin + ni)%nat -> (jmin <= j < jmin + nj)%nat -> nth ((k * nlat + j) * nlon + i) t 0 = flt (nth k (expo (dir i j) energies) 0)) /\
      (~ ((imin <= i < imin + ni)%nat /\ (jmin <= j < jmin + nj)%nat) -> nth ((k * nlat + j) * nlon + i) t 0 = 0).
Proof.
  intros HE HX Hni Hnj.
  rewrite (mfold_nest (fun j im i => mfold (fun im k =>
               obind (vec_get (expo (dir i j) energies) k) (fun x =>
               obind (vec_at im ((k * nlat + j) * nlon + i)%nat) (fun _ =>
               Ok (upd im ((k * nlat + j) * nlon + i)%nat (flt x)))))
             (seq 0 ne) im) (fun _ => seq imin ni)).
  rewrite (mfold_nest (fun (ji : nat * nat) im k =>
               obind (vec_get (expo (dir (snd ji) (fst ji)) energies) k) (fun x =>
               obind (vec_at im ((k * nlat + fst ji) * nlon + snd ji)%nat) (fun _ =>
               Ok (upd im ((k * nlat + fst ji) * nlon + snd ji)%nat (flt x))))) (fun _ => seq 0 ne)).
  set (L := flat_map _ (flat_map _ _)).
  assert (HL : forall i j k, In ((j, i), k) L <-> (jmin <= j < jmin + nj)%nat /\ (imin <= i < imin + ni)%nat /\ (k < ne)%nat).
  { intros i j k. unfold L. rewrite in_flat_map. split.
    - intros ((j0, i0) & A & B). rewrite in_flat_map in A. destruct A as (j1 & A1 & A2). apply in_map_iff in A2. destruct A2 as (i1 & A2 & A3).
      apply in_map_iff in B. destruct B as (k1 & B1 & B2). injection A2 as <- <-. injection B1 as <- <- <-.
      apply in_seq in A1, A3, B2. lia.
    - intros (A & B & C). exists (j, i). split.
      + apply in_flat_map. exists j. split; [apply in_seq; lia|]. apply in_map. apply in_seq. lia.
      + apply in_map. apply in_seq. lia. }
  set (idx := fun a : nat * nat * nat => ((snd a * nlat + fst (fst a)) * nlon + snd (fst a))%nat).
  assert (HB : forall a, In a L -> (idx a < ne * nlat * nlon)%nat).
  { intros ((j, i), k) Ha. apply HL in Ha. unfold idx. cbn [fst snd]. assert (j < nlat)%nat by lia. assert (i < nlon)%nat by lia.
    assert (k * nlat + j < ne * nlat)%nat by nia. nia. }
  destruct (store_loop (fun s (ab : nat * nat * nat) =>
               obind (vec_get (expo (dir (snd (fst ab)) (fst (fst ab))) energies) (snd ab)) (fun x =>
               obind (vec_at s ((snd ab * nlat + fst (fst ab)) * nlon + snd (fst ab))%nat) (fun _ =>
               Ok (upd s ((snd ab * nlat + fst (fst ab)) * nlon + snd (fst ab))%nat (flt x)))))
     idx (fun a => flt (nth (snd a) (expo (dir (snd (fst a)) (fst (fst a))) energies) 0)) (ne * nlat * nlon) L (repeat 0 (ne * nlat * nlon)))
    as (t & E & TL & V & O).
  - apply repeat_length.
  - exact HB.
  - intros im ((j, i), k) Ha Him. pose proof (HB _ Ha) as Hidx. unfold idx in *. apply HL in Ha. cbn [fst snd] in *.
    rewrite (vec_get_ok _ k 0) by (rewrite HX; lia). cbn [obind]. rewrite (MpsfProofs.vec_at_ok im _ 0) by lia. reflexivity.
  - apply NoDup_map_on.
    + unfold L. apply NoDup_pairs; [apply NoDup_pairs|]; apply seq_NoDup.
    + intros ((j, i), k) ((j', i'), k') Ha Hb. apply HL in Ha, Hb. unfold idx. cbn [fst snd]. intros E.
      apply idx3 in E; try lia. destruct E as (-> & -> & ->). reflexivity.
  - exists t. split; [exact E|]. split; [exact TL|]. intros i j k Hi Hj Hk. split.
    + intros Wi Wj. apply (V ((j, i), k)). apply HL. lia.
    + intros NW. change ((k * nlat + j) * nlon + i)%nat with (idx ((j, i), k)). rewrite O.
      * apply nth_repeat.
      * intros ((j', i'), k') Ha. apply HL in Ha. unfold idx. cbn [fst snd]. intros Eq. apply idx3 in Eq; try lia.
Qed.

(** Position of pixel (i, j) is in the window. *)
Definition inside (sub : bool) (a b c d : Z) (i j : nat) : Prop :=
  sub = true -> (a <= Z.of_nat i < b)%Z /\ (c <= Z.of_nat j < d)%Z.

Lemma computeMap_ok emin emax r nlon nlat ne sub a b c d :
  0 < emin -> 0 < emax -> (2 <= nlon)%nat -> (2 <= nlat)%nat -> (2 <= ne)%nat -> (forall dr es, length (expo dr es) = length es) ->
  let step := ln (emax / emin) / (INR ne - 1) in
  let es := map (fun k => emin * exp (step * INR k)) (seq 0 ne) in
  let dx := 2 * r / (INR nlon - 1) in let dy := 2 * r / (INR nlat - 1) in
  exists im, computeMap Dir pix expo flt emin emax r nlon nlat ne sub a b c d =
    Ok {| mf_naxes := (nlon, nlat, ne); mf_crpix := (crpix_of nlon, crpix_of nlat); mf_cdelt := (dx, dy, step);
          mf_crval3 := emin; mf_energies := es; mf_image := im |} /\ length im = (ne * nlat * nlon)%nat /\
    forall i j k, (i < nlon)%nat -> (j < nlat)%nat -> (k < ne)%nat ->
      (inside sub a b c d i j -> nth ((k * nlat + j) * nlon + i) im 0 = flt (nth k (expo (pix (crpix_of nlon) (crpix_of nlat) dx dy (INR (i + 1)) (INR (j + 1))) es) 0)) /\
      (~ inside sub a b c d i j -> nth ((k * nlat + j) * nlon + i) im 0 = 0).
Proof.
  intros He1 He2 Hlon Hlat Hne HX step es dx dy. unfold computeMap.
  assert (Q : forall n, (2 <= n)%nat -> INR n - 1 <> 0). { intros n Hn. pose proof (le_INR 2 n Hn) as K. change (INR 2) with 2 in K. lra. }
  rewrite div_ok by lra. cbn [obind]. rewrite log_ok by (apply Rdiv_lt_0_compat; lra). cbn [obind]. rewrite div_ok by auto. cbn [obind].
  fold step. fold es. unfold front. rewrite (vec_get_ok es 0 0) by (unfold es; rewrite map_length, seq_length; lia). cbn [obind].
  rewrite div_ok by auto. cbn [obind]. rewrite div_ok by auto. cbn [obind]. fold dx. fold dy. cbv zeta.
  set (imin := if sub then _ else _). set (imax := if sub then _ else _). set (jmin := if sub then _ else _). set (jmax := if sub then _ else _).
  destruct (image_loop (fun i j => pix (crpix_of nlon) (crpix_of nlat) dx dy (INR (i + 1)) (INR (j + 1))) es nlon nlat ne imin (imax - imin) jmin (jmax - jmin))
    as (t & E & TL & G).
  - unfold es. now rewrite map_length, seq_length.
  - intros dr. rewrite HX. unfold es. now rewrite map_length, seq_length.
  - unfold imin, imax. destruct sub; lia.
  - unfold jmin, jmax. destruct sub; lia.
  - rewrite E. cbn [obind]. exists t. split.
    + f_equal. f_equal. unfold es. rewrite MpsfProofs.nth_mapseq by lia. cbn [INR]. rewrite Rmult_0_r, exp_0. ring.
    + split; [exact TL|]. intros i j k Hi Hj Hk. destruct (G i j k Hi Hj Hk) as (G1 & G2). split.
      * intros W. apply G1; unfold imin, imax, jmin, jmax; destruct sub; try lia; destruct (W eq_refl); lia.
      * intros NW. apply G2. intros (A & B). apply NW. intros ->. unfold imin, imax, jmin, jmax in *. lia.
Qed.

End C.

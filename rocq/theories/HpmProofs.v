(** For C81/C181. *)
From Coq Require Import Reals Lra ZArith List Bool Lia.
From Verif Require Import Base AccumModel AccumProofs EvtModel WmapModel WmapSpec WmapProofs CmapModel CmapSpec CmapProofs CmapProofs2 DexpSpec WmapProps HpmModel HpmSpec.
Import ListNotations.
Local Open Scope nat_scope.

Lemma total_app a b : total (a ++ b) = (total a + total b)%R.
Proof. unfold total. induction a as [|x a IH]; cbn [app fold_right]; [lra|rewrite IH; lra]. Qed.
Lemma total_cons x l : total (x :: l) = (x + total l)%R.
Proof. reflexivity. Qed.
Lemma vec_at_ok {A} (l : list A) i d : i < length l -> vec_at l i = Ok (nth i l d).
Proof. intros H. unfold vec_at. now rewrite (nth_error_nth' l d H). Qed.
Lemma npix_eq n : npix n = 12 * n * n. Proof. reflexivity. Qed.

Lemma sum_loop (vs : list R) : forall n, n <= length vs -> forall a,
  mfold (fun acc i => obind (vec_get vs i) (fun v => Ok (acc + v)%R)) (seq 0 n) a = Ok (a + total (firstn n vs))%R.
Proof.
  induction n as [|n IH]; intros Hn a; [cbn; f_equal; unfold total; cbn; lra|].
  rewrite seq_S', mfold_snoc', IH by lia. cbn [obind]. rewrite (vec_get_ok vs n 0%R) by lia. cbn [obind]. f_equal.
  assert (E : firstn (S n) vs = firstn n vs ++ [nth n vs 0%R]).
  { clear IH. revert vs Hn. induction n as [|n IHn]; intros [|x vs] Hn; cbn [length] in Hn; try lia; [reflexivity|]. cbn [firstn nth app]. f_equal. apply IHn. lia. }
  rewrite E, total_app. replace (total [nth n vs 0%R]) with (nth n vs 0%R) by (unfold total; cbn; lra). lra.
Qed.
Lemma sum_all (vs : list R) n : n = length vs -> mfold (fun acc i => obind (vec_get vs i) (fun v => Ok (acc + v)%R)) (seq 0 n) 0%R = Ok (total vs).
Proof. intros ->. rewrite sum_loop by lia. rewrite firstn_all. f_equal. lra. Qed.

Definition ints_of (h : hpm) : list R := map (fun k => (total (snd (nth k (h_image h) (0%nat, []))) * h_omega h)%R) (seq 0 (length (h_energies h))).
Definition set_ints (h : hpm) (ints : list R) (t : R) : hpm := mk_hpm (h_nside h) (h_image h) (h_energies h) (h_interp h) (h_enforce h) (h_omega h) ints t.

Lemma nth_ints h k : k < length (h_energies h) -> nth k (ints_of h) 0%R = (total (snd (nth k (h_image h) (0%nat, []))) * h_omega h)%R.
Proof.
  intros H. unfold ints_of. apply nth_error_nth. apply (map_nth_error (fun k => (total (snd (nth k (h_image h) (0%nat, []))) * h_omega h)%R)).
  rewrite (nth_error_nth' _ 0) by (rewrite seq_length; exact H). now rewrite seq_nth by exact H.
Qed.

Lemma ints_ok' h : length (h_energies h) <= length (h_image h) -> (forall k plane, nth_error (h_image h) k = Some plane -> fst plane = h_nside h /\ length (snd plane) = 12 * h_nside h * h_nside h) -> h_energies h <> [] -> exists h', computeMapIntegrals h = Ok h' /\ integrated h' /\
  h_nside h' = h_nside h /\ h_image h' = h_image h /\ h_energies h' = h_energies h /\ h_interp h' = h_interp h /\ h_enforce h' = h_enforce h /\ h_omega h' = h_omega h.
Proof.
  intros L S Hne. unfold computeMapIntegrals.
  rewrite (push_loop _ (fun k => (total (snd (nth k (h_image h) (0%nat, []))) * h_omega h)%R)).
  2:{ intros ps k Hk. rewrite (vec_get_ok (h_image h) k (0%nat, [])) by lia. cbn [obind].
      destruct (S k (nth k (h_image h) (0%nat, []))) as (_ & Lk); [apply nth_error_nth'; lia|]. rewrite sum_all by (now rewrite npix_eq). reflexivity. }
  cbn [obind app]. fold (ints_of h).
  assert (Li : length (ints_of h) = length (h_energies h)) by (unfold ints_of; now rewrite map_length, seq_length).
  destruct (length (h_energies h)) as [|[|n]] eqn:En; [destruct (h_energies h); [congruence|discriminate]| |].
  - rewrite (vec_at_ok (ints_of h) 0 0%R) by lia. cbn [obind]. eexists. split; [reflexivity|]. split; [|cbn; auto 10].
    unfold integrated. cbn [h_ints h_energies h_image h_omega h_total]. rewrite En. split; [lia|]. split; [|split; [reflexivity|lia]].
    intros k plane Hp Hk. rewrite nth_ints by lia. now rewrite (nth_error_nth _ _ (0%nat, []) Hp).
  - assert (K : forall m, m <= Datatypes.S n -> mfold (fun acc k =>
             obind (vec_get (ints_of h) (Datatypes.S k)) (fun v1 => obind (vec_get (h_energies h) (Datatypes.S k)) (fun e1 =>
             obind (vec_get (ints_of h) k) (fun v0 => obind (vec_get (h_energies h) k) (fun e0 =>
             Ok (acc + (v1 * e1 + v0 * e0) / 2 * ln (e1 / e0))%R))))) (seq 0 m) 0%R = Ok (sum m (fun k =>
       (nth (Datatypes.S k) (ints_of h) 0 * nth (Datatypes.S k) (h_energies h) 0 + nth k (ints_of h) 0 * nth k (h_energies h) 0) / 2
       * ln (nth (Datatypes.S k) (h_energies h) 0 / nth k (h_energies h) 0))%R)).
    { induction m as [|m IH]; intros Hm; [reflexivity|]. rewrite seq_S', mfold_snoc', IH by lia. cbn [obind].
      rewrite (vec_get_ok (ints_of h) (Datatypes.S m) 0%R), (vec_get_ok (ints_of h) m 0%R) by lia.
      rewrite (vec_get_ok (h_energies h) (Datatypes.S m) 0%R), (vec_get_ok (h_energies h) m 0%R) by lia. reflexivity. }
    rewrite K by lia. cbn [obind]. eexists. split; [reflexivity|]. split; [|cbn [h_nside h_image h_energies h_interp h_enforce h_omega]; auto 10].
    unfold integrated. cbn [h_ints h_energies h_image h_omega h_total]. rewrite En. split; [lia|]. split; [|split; [lia|reflexivity]].
    intros k plane Hp Hk. rewrite nth_ints by lia. now rewrite (nth_error_nth _ _ (0%nat, []) Hp).
Qed.

Lemma ints_ok h : shaped h -> h_energies h <> [] -> exists h', computeMapIntegrals h = Ok h' /\ integrated h' /\
  h_nside h' = h_nside h /\ h_image h' = h_image h /\ h_energies h' = h_energies h /\ h_interp h' = h_interp h /\ h_enforce h' = h_enforce h /\ h_omega h' = h_omega h.
Proof. intros (L & S). apply ints_ok'; [lia|exact S]. Qed.

(** ** Look-ups *)
Definition to_w (h : hpm) : wmap := mkWmap [] 3 0 0 false false (h_enforce h) (h_energies h) (h_ints h).
Lemma check_eq h e : check_energy h e = WmapModel.check_energy (to_w h) e. Proof. reflexivity. Qed.
Lemma lower_eq h e : lower_plane h e = WmapModel.lower_plane (to_w h) e. Proof. reflexivity. Qed.

Section Sky.
Context {D : Type}.
Variable pix : nat -> D -> nat.
Variable near : nat -> D -> list (nat * R).

Lemma value_pair h d e k a b y1 : increasing (h_energies h) -> (0 <= e)%R -> (h_enforce h = false \/ (a <= e <= b)%R) ->
  pair_for (h_energies h) e k a b -> value_plane pix near h d (Z.of_nat k) = Ok y1 ->
  value pix near h d e = if Reqb e a then Ok y1 else obind (value_plane pix near h d (Z.of_nat (S k))) (fun y2 => interpolatePowerLaw e a b (lift y1) (lift y2)).
Proof.
  intros HI He HB PF EV. assert (CE : check_energy h e = Ok tt).
  { rewrite check_eq. pose proof PF as (Ha & Hb & _). destruct HB as [HB|HB]; [unfold WmapModel.check_energy; cbn; now rewrite HB|]. now apply (between_fine (to_w h) e k a b). }
  unfold value. destruct (Rltb_spec e 0); [lra|]. cbn [obind]. rewrite CE. cbn [obind]. rewrite lower_eq, (pair_lower (to_w h) e k a b HI eq_refl PF). cbn [obind].
  rewrite EV. cbn [obind]. destruct PF as (Ha & Hb & _). rewrite Nat2Z.id. unfold vec_get. rewrite Ha. cbn [obind]. destruct (Reqb e a); [reflexivity|].
  replace (Z.of_nat k + 1)%Z with (Z.of_nat (S k)) by lia. rewrite Nat2Z.id, Hb. reflexivity.
Qed.

Lemma not_refused h k : k < length (h_energies h) -> refused h (Z.of_nat k) = false.
Proof. intros H. unfold refused. destruct (Z.ltb_spec (Z.of_nat k) 0); [lia|]. destruct (Z.ltb_spec (Z.of_nat (length (h_energies h))) (Z.of_nat k)); [lia|]. reflexivity. Qed.

Lemma interp_loop (vs : list R) lo hi l : (forall i w, In (i, w) l -> i < length vs) -> (forall i, i < length vs -> (lo <= nth i vs 0 <= hi)%R) ->
  List.Forall (fun iw : nat * R => (0 <= snd iw)%R) l -> forall a,
  exists v, mfold (fun acc iw => obind (vec_get vs (fst iw)) (fun v => Ok (acc + snd iw * v)%R)) l a = Ok (a + v)%R /\ (total (map snd l) * lo <= v <= total (map snd l) * hi)%R.
Proof.
  intros Hi Hv Hw. induction l as [|[i w] l IH]; intros a; cbn [mfold map].
  - exists 0%R. split; [f_equal; lra|]. unfold total. cbn. lra.
  - cbn [fst snd]. pose proof (Hi i w (or_introl eq_refl)) as Li. rewrite (vec_get_ok vs i 0%R) by exact Li. cbn [obind].
    apply Forall_cons_iff in Hw. destruct Hw as (W1 & W2). cbn in W1.
    destruct (IH (fun j u H => Hi j u (or_intror H)) W2 (a + w * nth i vs 0)%R) as (v & E & B). rewrite E.
    exists (w * nth i vs 0 + v)%R. split; [f_equal; lra|]. rewrite total_cons. destruct (Hv i Li) as (V1 & V2).
    assert (w * lo <= w * nth i vs 0 <= w * hi)%R by (split; apply Rmult_le_compat_l; lra). lra.
Qed.
End Sky.

Lemma npix_pos n : 0 < n -> (0 < INR (npix n))%R.
Proof. intros H. apply lt_0_INR. unfold npix. nia. Qed.
Lemma omega_pos n : 0 < n -> (0 < omega n)%R.
Proof. intros H. unfold omega. pose proof (npix_pos n H). pose proof PI_RGT_0. apply Rmult_lt_0_compat; [lra|]. now apply Rinv_0_lt_compat. Qed.

Lemma skipn_nth {A} (l : list A) n i d : nth i (skipn n l) d = nth (n + i) l d.
Proof. revert l. induction n as [|n IH]; intros [|x l]; cbn; auto. destruct i; reflexivity. Qed.
Lemma firstn_nth {A} (l : list A) n i d : i < n -> nth i (firstn n l) d = nth i l d.
Proof. revert n l. induction i as [|i IH]; intros [|n] [|x l] H; cbn; auto; try lia. apply IH. lia. Qed.

(** Scaling all planes. *)
Lemma differential_ok n solid : forall (image : list (nat * list R)) widths, length widths <= length image ->
  (forall w, In w widths -> (solid * w <> 0)%R) -> (forall k p, nth_error image k = Some p -> length (snd p) = n) ->
  exists image', convertToDifferential image widths n solid = Ok image' /\ length image' = length image /\
  forall k p, nth_error image k = Some p -> nth_error image' k = Some (if k <? length widths then (fst p, map (fun v => (v * (1 / (solid * nth k widths 0)))%R) (snd p)) else p).
Proof.
  intros image widths Hl Hw Hn. unfold convertToDifferential.
  match goal with |- context [mfold ?f _ _] => set (step := f) end.
  assert (K : forall m, m <= length widths -> exists im, mfold step (seq 0 m) image = Ok im /\ length im = length image /\
     forall k p, nth_error image k = Some p -> nth_error im k = Some (if k <? m then (fst p, map (fun v => (v * (1 / (solid * nth k widths 0)))%R) (snd p)) else p)).
  { induction m as [|m IH]; intros Hm; [exists image; split; [reflexivity|split; [reflexivity|auto]]|].
    destruct (IH ltac:(lia)) as (im & E & L & P). rewrite seq_S', mfold_snoc', E. cbn [obind]. unfold step.
    destruct (nth_error image m) as [p|] eqn:Ep; [|apply nth_error_None in Ep; lia]. unfold vec_get at 1. rewrite (P m p Ep). rewrite Nat.ltb_irrefl. cbn [obind].
    rewrite (vec_get_ok widths m 0%R) by lia. cbn [obind]. destruct (Reqb_spec (solid * nth m widths 0%R)%R 0%R) as [Z|_]; [exfalso; apply (Hw (nth m widths 0%R)); [apply nth_In; lia|exact Z]|].
    rewrite (Hn m p Ep), Nat.ltb_irrefl. rewrite vec_set_ok by (rewrite L; apply nth_error_Some; congruence).
    eexists. split; [reflexivity|]. split; [now rewrite upd_length|]. intros k q Eq. destruct (Nat.eq_dec k m) as [->|N].
    - assert (q = p) by congruence. subst q. rewrite (nth_error_nth' _ (0%nat, [])) by (rewrite upd_length, L; apply nth_error_Some; congruence).
      rewrite nth_upd_eq by (rewrite L; apply nth_error_Some; congruence).
      destruct (Nat.ltb_spec m (S m)); [|lia]. rewrite firstn_all2 by (rewrite (Hn m p Ep); lia). rewrite skipn_all2 by (rewrite (Hn m p Ep); lia). now rewrite app_nil_r.
    - assert (Lk : k < length image) by (apply nth_error_Some; congruence). rewrite (nth_error_nth' _ (0%nat, [])) by (rewrite upd_length, L; exact Lk). rewrite nth_upd_neq by auto.
      rewrite (nth_error_nth _ _ (0%nat, []) (P k q Eq)). f_equal. destruct (Nat.ltb_spec k m); destruct (Nat.ltb_spec k (S m)); try lia; reflexivity. }
  exact (K (length widths) (le_n _)).
Qed.

Lemma total_scale c l : total (map (fun v => (v * c)%R) l) = (total l * c)%R.
Proof. unfold total. induction l as [|x l IH]; cbn; [lra|rewrite IH; lra]. Qed.

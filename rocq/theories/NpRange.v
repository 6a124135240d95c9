(** The exposures of a sub-range of the energies. *)
From Coq Require Import Reals String List Bool PeanoNat Lra Lia.
From Verif Require Import Base DerivSpec AccumModel AccumProofs TrapModel TrapSpec TrapProofs NpModel NpSpec NpProofs.
Import ListNotations.
Local Open Scope R_scope.
Local Open Scope list_scope.

Lemma trunc_spec x : 0 <= x -> INR (trunc_nat x) <= x < INR (trunc_nat x) + 1.
Proof.
  intros H. unfold trunc_nat. destruct (archimed x) as [A B]. assert (0 < up x)%Z by (apply lt_IZR; lra).
  rewrite INR_IZR_INZ, Z2Nat.id by lia. rewrite minus_IZR. lra.
Qed.
Lemma last_nth (l : list R) : last l 0 = nth (length l - 1) l 0.
Proof.
  induction l as [|a l IH]; auto. destruct l as [|b l]; auto. change (last (a :: b :: l) 0) with (last (b :: l) 0). rewrite IH. simpl. now rewrite Nat.sub_0_r.
Qed.
Section Range.
Variable s : source.
Variables a h : R.
Notation en := (s_en s).
Notation ex := (s_ex s).
Hypothesis Hh : 0 < h.
Hypothesis Hen : forall k, (k < length en)%nat -> nth k en 0 = exp (a + INR k * h).
Hypothesis N2 : (2 <= length en)%nat.
Hypothesis Lx : length ex = length en.
Hypothesis Nmax : INR (length en) <= IZR (2 ^ 64).

Lemma INR_pred : INR (length en - 1) = INR (length en) - 1.
Proof. rewrite minus_INR by lia. reflexivity. Qed.
Lemma npos : 1 <= INR (length en - 1).
Proof. change 1 with (INR 1). apply le_INR. lia. Qed.
Lemma front_is : nth 0 en 0 = exp a.
Proof. rewrite Hen by lia. simpl. f_equal. ring. Qed.
Lemma back_is : last en 0 = exp (a + INR (length en - 1) * h).
Proof. rewrite last_nth. apply Hen. lia. Qed.
Lemma step_is : ln (last en 0 / nth 0 en 0) / INR (length en - 1) = h.
Proof.
  rewrite back_is, front_is. unfold Rdiv at 2. rewrite <- exp_Ropp, <- exp_plus, ln_exp. pose proof npos. field. lra.
Qed.
Lemma exposure_at_ok l : a <= l <= a + INR (length en - 1) * h -> exists x, exposure_at en ex h l = Ok x /\ on_line en ex (exp l) x.
Proof.
  intros [H1 H2]. unfold exposure_at. rewrite front_is, ln_exp. set (q := (l - a) / h).
  assert (Q : l = a + q * h) by (unfold q; field; lra).
  assert (Q0 : 0 <= q) by (unfold q; apply Rmult_le_pos; [lra|left; now apply Rinv_0_lt_compat]).
  assert (Q1 : q <= INR (length en - 1)) by (apply Rmult_le_reg_r with h; lra).
  unfold to_size. destruct (Rltb_spec (-1) q) as [_|]; [|lra]. destruct (Rltb_spec q (IZR (2 ^ 64))) as [_|C]; [|exfalso; apply C; rewrite INR_pred in Q1; lra].
  simpl andb. cbv iota. simpl obind. destruct (trunc_spec q Q0) as [T1 T2]. set (kk := trunc_nat q) in *.
  assert (Kle : (kk <= length en - 1)%nat) by (apply INR_le; lra).
  assert (P : forall k, (k < length en)%nat -> nth_error en k = Some (exp (a + INR k * h))) by (intros k Hk; rewrite <- Hen by auto; now apply nth_error_nth').
  assert (X : forall k, (k < length en)%nat -> nth_error ex k = Some (nth k ex 0)) by (intros k Hk; apply nth_error_nth'; lia).
  destruct (Nat.eqb_spec kk (length en - 1)) as [E|E].
  - rewrite vec_get_nth by lia. eexists. split; [reflexivity|]. assert (q = INR (length en - 1)) as Eq by (rewrite <- E in *; lra).
    exists (length en - 2)%nat, (exp (a + INR (length en - 2) * h)), (exp (a + INR (length en - 1) * h)), (nth (length en - 2) ex 0), (nth (length en - 1) ex 0).
    assert (En : S (length en - 2) = (length en - 1)%nat) by lia. rewrite En.
    assert (Ep : INR (length en - 1) = INR (length en - 2) + 1) by (rewrite <- En; apply S_INR).
    repeat split; try apply P; try apply X; try lia.
    + rewrite Q, Eq, Ep. left. apply exp_increasing. nra.
    + rewrite Q, Eq. lra.
    + unfold line. simpl. rewrite !ln_exp. rewrite Q, Eq, Ep, Lx. field. nra.
  - assert (K : (S kk < length en)%nat) by lia. rewrite !vec_at_nth by lia. simpl. eexists. split; [reflexivity|].
    exists kk, (exp (a + INR kk * h)), (exp (a + INR (S kk) * h)), (nth kk ex 0), (nth (S kk) ex 0).
    rewrite Hen by lia. rewrite ln_exp.
    repeat split; try apply P; try apply X; try lia.
    + rewrite Q. destruct T1 as [T1|T1]; [left; apply exp_increasing; nra|right; f_equal; rewrite T1; reflexivity].
    + rewrite Q, S_INR. left. apply exp_increasing. nra.
    + unfold line. cbn [fst snd]. rewrite !ln_exp, S_INR. field. nra.
Qed.

Lemma loop_ok ls le : forall n k, (forall j, (k <= j < k + n)%nat -> a <= INR j * ls + le <= a + INR (length en - 1) * h) ->
  exists xs, exposure_loop en ex h ls le k n = Ok (map (fun j => exp (INR j * ls + le)) (seq k n), xs) /\ length xs = n /\
    forall j, (j < n)%nat -> on_line en ex (exp (INR (k + j) * ls + le)) (nth j xs 0).
Proof.
  induction n as [|n IH]; intros k H; [exists []; repeat split; auto; intros; lia|].
  destruct (exposure_at_ok (INR k * ls + le)) as (x & Ex & On); [apply H; lia|].
  destruct (IH (S k)) as (xs & El & L & O); [intros; apply H; lia|].
  exists (x :: xs). simpl. rewrite Ex. simpl. rewrite El. simpl. repeat split; auto. intros [|j] Hj; [now rewrite Nat.add_0_r|].
  replace (k + S j)%nat with (S k + j)%nat by lia. apply O. lia.
Qed.
Variables emin emax : R.
Notation lo := (Rmax emin (nth 0 en 0)).
Notation hi := (Rmin emax (last en 0)).
Lemma clip_lo f : (if Rltb emin f then f else emin) = Rmax emin f.
Proof. destruct (Rltb_spec emin f); unfold Rmax; destruct (Rle_dec emin f); lra. Qed.
Lemma clip_hi b : (if Rltb b emax then b else emax) = Rmin emax b.
Proof. destruct (Rltb_spec b emax); unfold Rmin; destruct (Rle_dec emax b); lra. Qed.
Lemma front_lt_back : nth 0 en 0 < last en 0.
Proof. rewrite front_is, back_is. apply exp_increasing. pose proof npos. nra. Qed.
Lemma arrays_unfold nee : exposure_arrays s emin emax nee =
  if Reqb lo (nth 0 en 0) && Reqb hi (last en 0) then Ok (en, ex)
  else let m := if (nee =? 0)%nat then length en else nee in
    if Rltb 0 (nth 0 en 0) && Rltb 0 (last en 0) && negb (Reqb (nth 0 en 0) (last en 0)) && Rltb 0 hi && negb (m =? 1)%nat
    then exposure_loop en ex h (ln (hi / lo) / INR (m - 1)) (ln lo) 0 m else UB.
Proof.
  pose proof step_is as St. unfold exposure_arrays. destruct en as [|f l] eqn:E; [simpl in N2; lia|]. assert (F : f = nth 0 en 0) by (now rewrite E). rewrite <- E in *. rewrite F. clear E F.
  cbv zeta. rewrite clip_lo, clip_hi. rewrite St. reflexivity.
Qed.
Lemma whole_range nee : emin <= nth 0 en 0 -> last en 0 <= emax -> exposure_arrays s emin emax nee = Ok (en, ex).
Proof.
  intros H1 H2. rewrite arrays_unfold. rewrite Rmax_right, Rmin_right by auto.
  destruct (Reqb_spec (nth 0 en 0) (nth 0 en 0)); [|congruence]. destruct (Reqb_spec (last en 0) (last en 0)); [|congruence]. reflexivity.
Qed.
Lemma part_range nee : ~ (emin <= nth 0 en 0 /\ last en 0 <= emax) -> lo < hi -> nee <> 1%nat ->
  let m := if (nee =? 0)%nat then length en else nee in
  exists es xs, exposure_arrays s emin emax nee = Ok (es, xs) /\ length es = m /\ length xs = m /\
    (forall k, (k < m)%nat -> nth k es 0 = exp (ln lo + INR k * (ln (hi / lo) / INR (m - 1))) /\ on_line en ex (nth k es 0) (nth k xs 0)).
Proof.
  intros Hp Hl Hn m. pose proof front_lt_back as FB. assert (F0 : 0 < nth 0 en 0) by (rewrite front_is; apply exp_pos).
  assert (L0 : nth 0 en 0 <= lo) by apply Rmax_r. assert (H0 : hi <= last en 0) by apply Rmin_r.
  assert (M : (2 <= m)%nat) by (unfold m; destruct nee as [|[|nee]]; simpl; lia).
  assert (M1 : 1 <= INR (m - 1)) by (change 1 with (INR 1); apply le_INR; lia).
  rewrite arrays_unfold. fold m.
  destruct (Reqb_spec lo (nth 0 en 0)) as [E1|E1]; destruct (Reqb_spec hi (last en 0)) as [E2|E2]; simpl andb.
  1: exfalso; apply Hp; unfold Rmax, Rmin in *; destruct (Rle_dec emin (nth 0 en 0)), (Rle_dec emax (last en 0)); lra.
  all: cbv iota; cbv zeta.
  all: destruct (Rltb_spec 0 (nth 0 en 0)); [|lra]; destruct (Rltb_spec 0 (last en 0)); [|lra]; destruct (Reqb_spec (nth 0 en 0) (last en 0)); [lra|].
  all: destruct (Rltb_spec 0 hi); [|lra]; destruct (Nat.eqb_spec m 1); [lia|]; simpl andb; cbv iota.
  all: assert (L1 : 1 < hi / lo) by (apply Rmult_lt_reg_r with lo; [lra|]; replace (hi / lo * lo) with hi by (field; lra); lra).
  all: assert (LL : 0 < ln (hi / lo)) by (apply ln_increasing in L1; [rewrite ln_1 in L1; exact L1|lra]).
  all: assert (Lh : ln (hi / lo) = ln hi - ln lo) by (unfold Rdiv; rewrite ln_mult, ln_Rinv; [ring|lra|lra|apply Rinv_0_lt_compat; lra]).
  all: assert (La : a <= ln lo) by (rewrite <- (ln_exp a), <- front_is; destruct L0 as [L0|L0]; [left; now apply ln_increasing|rewrite L0 at 1; right; reflexivity]).
  all: assert (Lb : ln hi <= a + INR (length en - 1) * h) by (rewrite <- (ln_exp (a + _)), <- back_is; destruct H0 as [H0|H0]; [left; apply ln_increasing; lra|rewrite H0 at 1; right; reflexivity]).
  all: destruct (loop_ok (ln (hi / lo) / INR (m - 1)) (ln lo) m 0) as (xs & El & Lxs & On);
    [intros j Hj; assert (J : 0 <= INR j <= INR (m - 1)) by (split; [apply pos_INR|apply le_INR; lia]);
     assert (J2 : INR j * (ln (hi / lo) / INR (m - 1)) <= ln (hi / lo)) by
      (apply Rle_trans with (INR (m - 1) * (ln (hi / lo) / INR (m - 1))); [apply Rmult_le_compat_r; [apply Rmult_le_pos; [lra|left; apply Rinv_0_lt_compat; lra]|lra]|right; field; lra]);
     assert (J3 : 0 <= INR j * (ln (hi / lo) / INR (m - 1))) by (apply Rmult_le_pos; [lra|]; apply Rmult_le_pos; [lra|left; apply Rinv_0_lt_compat; lra]); lra|].
  all: eexists _, xs; split; [exact El|]; rewrite map_length, seq_length; split; [reflexivity|]; split; [exact Lxs|]; intros k Hk.
  all: assert (En : nth k (map (fun j => exp (INR j * (ln (hi / lo) / INR (m - 1)) + ln lo)) (seq 0 m)) 0 = exp (INR k * (ln (hi / lo) / INR (m - 1)) + ln lo)) by
    (rewrite (nth_indep _ 0 (exp (INR 0 * (ln (hi / lo) / INR (m - 1)) + ln lo))) by (rewrite map_length, seq_length; auto);
     rewrite (map_nth (fun j => exp (INR j * (ln (hi / lo) / INR (m - 1)) + ln lo))), seq_nth by auto; reflexivity).
  all: rewrite En; split; [f_equal; ring|exact (On k Hk)].
Qed.
End Range.

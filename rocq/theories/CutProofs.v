From Coq Require Import Reals Lra ZArith NArith List Bool Arith String Lia.
From Verif Require Import Base AccumModel AccumProofs CmapProofs CutModel CutSpec.
Import ListNotations.
Local Open Scope string_scope.
Local Open Scope list_scope.
Local Open Scope nat_scope.

(** ** Times *)
Lemma gti_diffs_spec a : forall b s, gti_diffs a b s =
  ((fst s + rsum (map (fun p => Rabs (fst (fst p) - fst (snd p))) (combine a b)))%R, (snd s + rsum (map (fun p => Rabs (snd (fst p) - snd (snd p))) (combine a b)))%R).
Proof.
  induction a as [|(a1 & a2) a IH]; intros [|(b1 & b2) b] (s1 & s2); cbn [gti_diffs combine map rsum fold_right fst snd]; try (f_equal; lra). rewrite IH. cbn [fst snd]. unfold rsum. f_equal; lra.
Qed.
Section Checks.
Variable cut_eq : cut -> cut -> bool.
Lemma fold_fst (l : list (cut * cut)) : forall s, fst (fold_left (fun s p => (fst s && cut_eq (fst p) (snd p), if cut_eq (fst p) (snd p) then snd s else gti_diffs (ivs_of (fst p)) (ivs_of (snd p)) (snd s))) l s)
  = fst s && forallb (fun p => cut_eq (fst p) (snd p)) l.
Proof. induction l as [|p l IH]; intros s; cbn [fold_left forallb]; [now rewrite andb_true_r|]. rewrite IH. cbn [fst]. now rewrite andb_assoc. Qed.
Lemma forallb_combine (a b : list cut) : length a = length b -> (forallb (fun p => cut_eq (fst p) (snd p)) (combine a b) = true <-> Forall2 (fun x y => cut_eq x y = true) a b).
Proof.
  revert b; induction a as [|x a IH]; intros [|y b] L; cbn in *; try discriminate; [split; [constructor|reflexivity]|]. rewrite andb_true_iff, IH by lia. split; [intros (H & H'); now constructor|intros H; inversion H; auto].
Qed.
Lemma compare_ok cuts1 cuts2 : fst (compare_gtis cut_eq cuts1 cuts2) = true <-> Forall2 (fun x y => cut_eq x y = true) (filter is_gti cuts1) (filter is_gti cuts2).
Proof.
  unfold compare_gtis. destruct (Nat.eqb_spec (length (filter is_gti cuts1)) (length (filter is_gti cuts2))) as [E|E]; cbn [fst].
  - rewrite fold_fst. cbn [fst andb]. now apply forallb_combine.
  - split; [discriminate|]. intros H. exfalso. apply E. clear E. induction H; cbn; congruence.
Qed.
Definition mism (l : list (cut * cut)) : list ((R * R) * (R * R)) := concat (map (fun p => if cut_eq (fst p) (snd p) then [] else combine (ivs_of (fst p)) (ivs_of (snd p))) l).
Lemma rsum_app a b : rsum (a ++ b) = (rsum a + rsum b)%R. Proof. unfold rsum. induction a as [|x a IH]; cbn; [lra|]. rewrite IH. lra. Qed.
Lemma fold_snd (l : list (cut * cut)) : forall s, snd (fold_left (fun s p => (fst s && cut_eq (fst p) (snd p), if cut_eq (fst p) (snd p) then snd s else gti_diffs (ivs_of (fst p)) (ivs_of (snd p)) (snd s))) l s)
  = ((fst (snd s) + rsum (map (fun p => Rabs (fst (fst p) - fst (snd p))) (mism l)))%R, (snd (snd s) + rsum (map (fun p => Rabs (snd (fst p) - snd (snd p))) (mism l)))%R).
Proof.
  induction l as [|p l IH]; intros s; cbn [fold_left].
  - cbn. destruct s as (b & x & y). cbn. f_equal; lra.
  - rewrite IH. cbn [snd]. unfold mism. cbn [map concat]. rewrite !map_app, !rsum_app. destruct (cut_eq (fst p) (snd p)); [cbn [map rsum fold_right]; f_equal; lra|]. rewrite gti_diffs_spec. cbn [fst snd]. f_equal; lra.
Qed.
End Checks.

(** ** Ranges *)
Lemma bounds_fold l : forall b, let r := fold_left (fun b c : R * R => (if Rltb (fst b) (fst c) then fst c else fst b, if Rltb (snd c) (snd b) then snd c else snd b)) l b in
  forall e, (fst r <= e <= snd r)%R <-> (fst b <= e <= snd b)%R /\ accepts l e.
Proof.
  induction l as [|(lo & hi) l IH]; intros b r e; subst r; cbn [fold_left].
  - split; [intros H; split; [exact H|intros ? ? []]|tauto].
  - rewrite IH. cbn [fst snd]. destruct (Rltb_spec (fst b) lo), (Rltb_spec hi (snd b)); (split; [intros (H1 & H2); split; [lra|]; intros x y [Q|Q]; [injection Q as <- <-; lra|now apply H2]|
      intros (H1 & H2); pose proof (H2 lo hi (or_introl eq_refl)); split; [lra|]; intros x y Q; apply H2; now right]).
Qed.
Lemma bounds_ok l : l <> [] -> exists lo hi, getRangeBounds l = Ok (lo, hi) /\ forall e, (lo <= e <= hi)%R <-> accepts l e.
Proof.
  intros Hl. destruct l as [|c l]; [contradiction|]. unfold getRangeBounds. pose proof (bounds_fold (c :: l) c) as B. cbv zeta in B. destruct (fold_left _ (c :: l) c) as (lo & hi). exists lo, hi. split; [reflexivity|]. intros e. rewrite (B e). cbn [fst snd]. split; [tauto|]. intros H. split; [|exact H]. destruct c as (a & b). apply H. now left.
Qed.
Lemma energy_ranges_ok cuts rs : energies_of cuts rs -> energy_ranges cuts = Ok rs.
Proof.
  intros E. unfold energy_ranges. rewrite E. assert (K : forall rs acc, mfold (fun l c => match c with Range _ lo hi => Ok (l ++ [(lo, hi)]) | _ => UB end) (map (fun r : R * R => Range "ENERGY" (fst r) (snd r)) rs) acc = Ok (acc ++ rs)).
  { clear. induction rs as [|(a & b) rs IH]; intros acc; cbn [map mfold]; [now rewrite app_nil_r|]. cbn [obind fst snd]. rewrite IH, <- app_assoc. reflexivity. }
  now rewrite K.
Qed.
Lemma expmap_ok cuts_eq ev mp er mr : energies_of ev er -> energies_of mp mr -> mr <> [] -> (exists e, accepts er e) -> er <> [] ->
  cuts_eq (filter (fun c => negb (is_energy c) && negb (is_irf_version c)) ev) (filter (fun c => negb (is_energy c) && negb (is_irf_version c)) mp) = true ->
  (checkExpMapCuts cuts_eq ev mp = Ok tt <-> forall e, accepts er e -> accepts mr e) /\ (checkExpMapCuts cuts_eq ev mp = Ok tt \/ checkExpMapCuts cuts_eq ev mp = Throw).
Proof.
  intros E1 E2 N2 (e0 & A0) N1 Q. unfold checkExpMapCuts. rewrite (energy_ranges_ok ev er E1), (energy_ranges_ok mp mr E2). cbn [obind]. rewrite Q. cbn [negb].
  destruct (bounds_ok er N1) as (lo & hi & B1 & V1), (bounds_ok mr N2) as (lo' & hi' & B2 & V2). rewrite B1, B2. cbn [obind fst snd]. apply V1 in A0.
  destruct (Rltb_spec lo lo') as [H1|H1]; cbn [orb]; [|destruct (Rltb_spec hi' hi) as [H2|H2]]; (split; [|tauto]); split; try discriminate.
  - intros H. specialize (H lo (proj1 (V1 lo) ltac:(lra))). apply V2 in H. lra.
  - intros H. specialize (H hi (proj1 (V1 hi) ltac:(lra))). apply V2 in H. lra.
  - intros _ e He. apply V2. apply V1 in He. lra.
  - reflexivity.
Qed.

(** ** Event types *)
Lemma bits_sum m n : nsum (map (fun j => N.pow 2 (N.of_nat j)) (filter (fun j => N.testbit m (N.of_nat j)) (seq 0 n))) = N.modulo m (N.pow 2 (N.of_nat n)).
Proof.
  assert (A : forall a b, nsum (a ++ b) = (nsum a + nsum b)%N). { unfold nsum. induction a as [|x a IH]; intros b; cbn [app fold_right]; [lia|]. rewrite IH. lia. }
  induction n as [|n IH]; [cbn; now rewrite N.mod_1_r|]. rewrite seq_S', filter_app, map_app, A, IH. rewrite Nat2N.inj_succ, N.pow_succ_r', (N.mul_comm 2), N.mod_mul_r by (try apply N.pow_nonzero; lia). f_equal.
  cbn [filter]. rewrite N.testbit_eqb. pose proof (N.mod_upper_bound (m / 2 ^ N.of_nat n) 2 ltac:(lia)) as U. destruct (N.eqb_spec ((m / 2 ^ N.of_nat n) mod 2) 1) as [E|E]; cbn [map nsum fold_right].
  - rewrite E. lia.
  - remember ((m / 2 ^ N.of_nat n) mod 2)%N as b eqn:Eb. clear Eb IH. assert (b = 0%N) as -> by lia. lia.
Qed.

(** ** The border *)
Lemma border_in n1 n2 i j : 1 <= n1 -> 1 <= n2 -> (In (i, j) (border n1 n2) <-> on_border n1 n2 i j).
Proof.
  intros H1 H2. unfold border, on_border. rewrite !in_app_iff, !in_map_iff. split.
  - intros [(k & Q & I)|[(k & Q & I)|[(k & Q & I)|(k & Q & I)]]]; injection Q as <- <-; rewrite <- ?in_rev in I; apply in_seq in I; lia.
  - intros (A & B & [->|[->|[->| ->]]]).
    + right. right. right. exists j. split; [reflexivity|]. rewrite <- in_rev. apply in_seq. lia.
    + right. left. exists j. split; [reflexivity|]. apply in_seq. lia.
    + left. exists i. split; [reflexivity|]. apply in_seq. lia.
    + right. right. left. exists i. split; [reflexivity|]. rewrite <- in_rev. apply in_seq. lia.
Qed.
Lemma border_check {D} (dir : nat -> nat -> option D) covered n1 n2 : 1 <= n1 -> 1 <= n2 ->
  (checkExposureMap_wcs dir covered n1 n2 = Ok tt <-> forall i j, on_border n1 n2 i j -> exists d, dir i j = Some d /\ covered d = true) /\ (checkExposureMap_wcs dir covered n1 n2 = Ok tt \/ checkExposureMap_wcs dir covered n1 n2 = Throw).
Proof.
  intros H1 H2. unfold checkExposureMap_wcs.
  assert (K : forall l, let r := mfold (fun (_ : unit) p => match dir (fst p) (snd p) with None => Throw | Some d => if covered d then Ok tt else Throw end) l tt in
    (r = Ok tt <-> forall i j, In (i, j) l -> exists d, dir i j = Some d /\ covered d = true) /\ (r = Ok tt \/ r = Throw)).
  { induction l as [|(i & j) l (I1 & I2)]; cbv zeta in *; cbn [mfold fst snd].
    - split; [split; [intros _ ? ? []|reflexivity]|now left].
    - destruct (dir i j) as [d|] eqn:Ed; [destruct (covered d) eqn:Ec|]; cbn [obind].
      + split; [|exact I2]. rewrite I1. split; [intros H a b [Q|Q]; [injection Q as <- <-; eauto|now apply H]|intros H a b Q; apply H; now right].
      + split; [|now right]. split; [discriminate|]. intros H. destruct (H i j (or_introl eq_refl)) as (d' & Q & C). rewrite Ed in Q. injection Q as <-. congruence.
      + split; [|now right]. split; [discriminate|]. intros H. destruct (H i j (or_introl eq_refl)) as (d' & Q & C). congruence. }
  destruct (K (border n1 n2)) as (K1 & K2). split; [|exact K2]. rewrite K1. split; intros H i j B; apply H; now apply border_in.
Qed.

(** ** Files *)
Lemma files_ok cuts_eq nogti f l : (exists w, checkFiles cuts_eq nogti (f :: l) = Ok w) <-> forall g, In g l -> nogti f g = true.
Proof.
  unfold checkFiles, checkCuts. cbn [andb].
  assert (K : forall acc, (exists w, mfold (fun w g => obind (if negb (nogti f g) then Throw else Ok false) (fun b => Ok (w ++ [b]))) l acc = Ok w) <-> forall g, In g l -> nogti f g = true); [|apply K].
  induction l as [|g l IH]; intros acc; cbn [mfold]; [split; [intros _ ? []|eauto]|].
  destruct (nogti f g) eqn:E; cbn [negb].
  - etransitivity; [exact (IH (acc ++ [false]))|]. split; [intros H k [<-|I]; auto|intros H k I; apply H; now right].
  - split; [intros (w & Q); discriminate|]. intros H. rewrite (H g (or_introl eq_refl)) in E. discriminate.
Qed.

(** The derivative of the unbinned log-likelihood: for C51. *)
From Coq Require Import Reals Lra Permutation Sorted.
From Coquelicot Require Import Coquelicot.
From Verif Require Import Base SMap AccumModel AccumProofs BinnedProofs NewtonProofs SmapGrad UnbinModel UnbinSpec UnbinProofs UnbinRuns UnbinHist UnbinCareful.
Local Open Scope nat_scope.

Lemma derive_loc f h x d delta : (0 < delta)%R -> (forall y, (Rabs (y - x) < delta)%R -> f y = h y) -> derivable_pt_lim f x d -> derivable_pt_lim h x d.
Proof.
  intros Hd E H eps He. destruct (H eps He) as [a Ha]. assert (Hm : (0 < Rmin a delta)%R) by (apply Rmin_glb_lt; [apply cond_pos|auto]).
  exists (mkposreal _ Hm). intros y Hy Hl. simpl in Hl. rewrite <- !E.
  - apply Ha; auto. eapply Rlt_le_trans; [exact Hl|apply Rmin_l].
  - replace (x - x)%R with 0%R by ring. now rewrite Rabs_R0.
  - replace (x + y - x)%R with y by ring. eapply Rlt_le_trans; [exact Hl|apply Rmin_r].
Qed.
Section Grad.
Context (ph : uphys) (g : ucfg).
Notation nev := (uc_nev g).
Hypothesis Sm : smooth ph.

Lemma with_param_id m n i s : sorted m -> mfind n m = Some s -> i < length (us_par s) -> forall x, with_param m n i x = minsert n (set_par s (upd (us_par s) i x) (us_fr s)) m.
Proof.
  intros So F Hi x. apply sorted_ext.
  - unfold sorted. assert (E : mkeys (with_param m n i x) = mkeys m). { unfold mkeys, with_param. rewrite map_map. apply map_ext. intros [k t]. simpl. destruct (Z.eqb_spec k n); auto. } now rewrite E.
  - now apply sorted_insert.
  - intros k. destruct (Z.eq_dec k n) as [->|Hk].
    + rewrite mfind_insert_eq. clear So. induction m as [|[k t] m IH]; simpl in *; [discriminate|]. rewrite (Z.eqb_sym k n). destruct (Z.eqb_spec n k) as [->|].
      * simpl. rewrite Z.eqb_refl. inversion F; subst. auto.
      * simpl. destruct (Z.eqb_spec n k); [congruence|]. auto.
    + rewrite mfind_insert_neq by auto. clear So F. induction m as [|[l t] m IH]; simpl; auto. destruct (Z.eqb_spec l n) as [->|]; simpl.
      * destruct (Z.eqb_spec k n); [congruence|]. auto.
      * now rewrite IH.
Qed.
Lemma sum_onto_insert (f : Z -> usrc -> R) m n s s' : sorted m -> mfind n m = Some s ->
  Rsum (map (fun ns => f (fst ns) (snd ns)) (minsert n s' m)) = (Rsum (map (fun ns => f (fst ns) (snd ns)) m) - f n s + f n s')%R.
Proof.
  intros So F. assert (C : forall m : SMap.smap usrc, map (fun ns => (fst ns, f (fst ns) (snd ns))) (minsert n s' m) = minsert n (f n s') (map (fun ns => (fst ns, f (fst ns) (snd ns))) m)).
  { induction m0 as [|[k z] m0 IH]; simpl; auto. destruct (n <? k)%Z; auto. destruct (n =? k)%Z; auto. simpl. now rewrite IH. }
  assert (T : forall m : SMap.smap usrc, map (fun ns => f (fst ns) (snd ns)) m = map snd (map (fun ns => (fst ns, f (fst ns) (snd ns))) m)) by (intros; rewrite map_map; reflexivity).
  rewrite !T, C, sum_insert by now apply (sorted_onto f). rewrite (mfind_onto f), F. reflexivity.
Qed.
Lemma density_derive n s i j : i < length (us_par s) ->
  derivable_pt_lim (fun x => density ph n (set_par s (upd (us_par s) i x) (us_fr s)) j) (nth i (us_par s) 0%R) (dflux_of ph n s j i * up_eff ph j)%R.
Proof.
  intros Hi. unfold density. simpl. set (r := if us_diffuse s then up_dresp ph n j else up_resp ph (us_img s) j).
  assert (E : (dflux_of ph n s j i * up_eff ph j = (r * up_eff ph j) * up_dspec ph (us_fn s) (us_par s) i j)%R).
  { unfold dflux_of, flux_of. fold r. destruct (up_pref ph (us_fn s)) as [k|] eqn:Ek; simpl; [|ring]. destruct (Nat.eqb_spec i k) as [->|]; simpl; [|ring].
    destruct (Reqb_spec (nth k (us_par s) 0%R) 0%R) as [|Hn]; simpl; [ring|]. rewrite (sm_pref _ Sm _ _ (us_par s) j Ek). field. exact Hn. }
  rewrite E. apply derive_ext with (f := fun x => ((r * up_eff ph j) * up_spec ph (us_fn s) (upd (us_par s) i x) j)%R). intros; ring.
  apply derive_scal. now apply Sm.
Qed.
Lemma upd_same_nth (l : list R) : forall i, i < length l -> upd l i (nth i l 0%R) = l.
Proof. induction l as [|a l IH]; intros [|i] H; simpl in *; try lia; auto. f_equal. apply IH. lia. Qed.
Lemma gradient_derive m n s i : sorted m -> mfind n m = Some s -> i < length (us_par s) -> us_grid s = None -> (forall j, j < nev -> (0 < total_density ph m j)%R) ->
  derivable_pt_lim (fun x => fresh_value ph g (with_param m n i x) None) (nth i (us_par s) 0%R) (Rsum (map (fun j => dlog ph m j (n, s, i)) (seq 0 nev)) - dn ph (n, s, i))%R.
Proof.
  intros So F Hi Hg Hp. set (x0 := nth i (us_par s) 0%R). set (sx := fun x => set_par s (upd (us_par s) i x) (us_fr s)).
  assert (Ex0 : sx x0 = s). { unfold sx, x0. rewrite upd_same_nth by auto. unfold set_par. now destruct s. }
  set (td := fun j x => (total_density ph m j - density ph n s j + density ph n (sx x) j)%R).
  assert (Td : forall j x, total_density ph (with_param m n i x) j = td j x).
  { intros j x. rewrite (with_param_id m n i s So F Hi). unfold total_density. rewrite (sum_onto_insert (fun n s => density ph n s j) m n s) by auto. reflexivity. }
  assert (Dt : forall j, derivable_pt_lim (td j) x0 (dflux_of ph n s j i * up_eff ph j)%R).
  { intros j. unfold td. apply derive_ext with (f := fun x => ((total_density ph m j - density ph n s j) + density ph n (sx x) j)%R). auto.
    replace (dflux_of ph n s j i * up_eff ph j)%R with (0 + dflux_of ph n s j i * up_eff ph j)%R by ring. apply derivable_pt_lim_plus. apply derivable_pt_lim_const. now apply density_derive. }
  assert (T0 : forall j, td j x0 = total_density ph m j). { intros j. unfold td. rewrite Ex0. ring. }
  destruct (all_pos_near td x0 (seq 0 nev)) as (delta & Hd & Hpos).
  { intros j I. apply in_seq in I. split; [eexists; apply Dt|]. rewrite T0. apply Hp. lia. }
  set (np := fun x => (Rsum (map (fun ns => up_npred ph (us_fn (snd ns)) (us_img (snd ns)) None (us_par (snd ns))) m) - up_npred ph (us_fn s) (us_img s) None (us_par s) + up_npred ph (us_fn s) (us_img s) None (upd (us_par s) i x))%R).
  apply derive_loc with (f := fun x => (Rsum (map (fun j => ln (td j x)) (seq 0 nev)) - np x)%R) (delta := delta); auto.
  - intros y Hy. unfold fresh_value. simpl excluded. cbv iota. f_equal.
    + unfold data_part. assert (Ef : forall l, filter (in_bounds ph None) l = l) by (induction l; simpl; congruence). rewrite Ef. f_equal. apply map_ext_in. intros j I. unfold log_density. rewrite Td.
      specialize (Hpos y Hy j I). destruct (Rltb_spec 0 (td j y)); auto. lra.
    + rewrite (with_param_id m n i s So F Hi). rewrite (sum_onto_insert (fun n s => up_npred ph (us_fn s) (us_img s) None (us_par s)) m n s) by auto. reflexivity.
  - apply derivable_pt_lim_minus.
    + assert (E : Rsum (map (fun j => dlog ph m j (n, s, i)) (seq 0 nev)) = Rsum (map (fun j => (dflux_of ph n s j i * up_eff ph j / td j x0)%R) (seq 0 nev))).
      { f_equal. apply map_ext_in. intros j I. unfold dlog, log_density. rewrite T0. assert (P : (0 < total_density ph m j)%R) by (apply Hp; apply in_seq in I; lia).
        destruct (Rltb_spec 0 (total_density ph m j)); [|lra]. now rewrite exp_ln. }
      rewrite E. apply (derive_Rsum (fun j x => ln (td j x))). intros j I.
      assert (P : (0 < td j x0)%R) by (rewrite T0; apply Hp; apply in_seq in I; lia).
      replace (dflux_of ph n s j i * up_eff ph j / td j x0)%R with (/ td j x0 * (dflux_of ph n s j i * up_eff ph j))%R by (unfold Rdiv; ring).
      apply (derivable_pt_lim_comp (td j) ln). apply Dt. now apply derivable_pt_lim_ln.
    + unfold np, dn. rewrite Hg. replace (up_dnpred ph (us_fn s) (us_img s) None (us_par s) i) with (0 + up_dnpred ph (us_fn s) (us_img s) None (us_par s) i)%R by ring.
      apply derivable_pt_lim_plus. apply derivable_pt_lim_const. now apply Sm.
Qed.
Lemma free_params_list m k n i : nth_error (free_params m) k = Some (n, i) -> exists s, nth_error (free_list m) k = Some (n, s, i) /\ In (n, s) m /\ i < length (us_par s).
Proof.
  assert (E : free_params m = map (fun nsi => (fst (fst nsi), snd nsi)) (free_list m)).
  { unfold free_params, free_list, free_positions. induction m as [|[a t] m IH]; simpl; auto. rewrite map_app, map_map, IH. reflexivity. }
  rewrite E. intros H. destruct (nth_error (free_list m) k) as [[[a t] b]|] eqn:F.
  - rewrite (map_nth_error _ _ _ F) in H. simpl in H. inversion H; subst. exists t. split; auto. apply nth_error_In in F. split. eapply free_list_in; eauto.
    unfold free_list in F. apply in_flat_map in F as ([a' t'] & I & J). apply in_map_iff in J as (q & Eq & Iq). simpl in Eq. inversion Eq; subst. unfold free_positions in Iq. apply filter_In in Iq as [Iq _]. apply in_seq in Iq. simpl in Iq. lia.
  - apply nth_error_None in F. assert (X : nth_error (map (fun nsi : Z * usrc * nat => (fst (fst nsi), snd nsi)) (free_list m)) k = None) by (apply nth_error_None; now rewrite map_length). congruence.
Qed.
End Grad.

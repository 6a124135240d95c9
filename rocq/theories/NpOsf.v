(** Derivatives of the one-source likelihood and of the counts of a pixel. *)
From Coq Require Import Reals String List Bool PeanoNat Lra Lia.
From Verif Require Import Base DerivSpec AccumModel AccumProofs TrapModel TrapSpec TrapProofs NpModel NpSpec NpProofs.
From Verif Require SmapGrad UnbinGrad.
Import ListNotations.
Local Open Scope R_scope.
Local Open Scope list_scope.

Section Osf.
Variable o : one_source.
Variable s : source.
Variable name : string.
Variable i : nat.
Variable v0 : R.
Notation p := (s_par s).
Definition q_at (v : R) (ev : event) : R := sp_val (s_spec s) (upd p i v) (ev_energy ev) * ev_resp ev.
Definition above_cut (ev : event) : bool := Rltb (o_epsf o) (sp_val (s_spec s) p (ev_energy ev) * ev_resp ev).
Fixpoint osum (q : event -> R) (evs : list event) (k : nat) : R :=
  match evs with
  | [] => 0
  | ev :: evs => (if Rltb (o_epsw o) (weight_of o k) then if above_cut ev then weight_of o k * ln (q ev) else 0 else 0) + osum q evs (S k)
  end.
Hypothesis Ed : o_edisp o = false.
Hypothesis Ef : 0 <= o_epsf o.
Hypothesis Hv : nth_error p i = Some v0.
Lemma p_self : upd p i v0 = p.
Proof. revert Hv. generalize p i. intros l. induction l as [|a l IH]; intros [|j] H; simpl in *; try discriminate; [congruence|f_equal; auto]. Qed.
Definition same_side (q : R) (ev : event) : Prop := if above_cut ev then o_epsf o < q else Rabs q < o_epsf o.
Lemma weight_ok k : (match o_weights o with None => True | Some w => (k < length w)%nat end) -> weight o k = Ok (weight_of o k).
Proof. unfold weight, weight_of. destruct (o_weights o); auto. intros. now apply vec_get_nth. Qed.
Lemma osf_sum_ok v : forall evs k acc, (forall ev, In ev evs -> same_side (q_at v ev) ev) ->
  (match o_weights o with None => True | Some w => (k + length evs <= length w)%nat end) ->
  osf_sum o (with_par s (upd p i v)) evs k acc = Ok (acc + osum (q_at v) evs k).
Proof.
  induction evs as [|ev evs IH]; intros k acc H W; simpl; [f_equal; ring|].
  rewrite weight_ok by (destruct (o_weights o); auto; simpl in W; lia). simpl.
  assert (W' : match o_weights o with None => True | Some w => (S k + length evs <= length w)%nat end) by (destruct (o_weights o); auto; simpl in W; lia).
  assert (IH' := fun acc => IH (S k) acc (fun e I => H e (or_intror I)) W').
  destruct (Rltb (o_epsw o) (weight_of o k)); [|rewrite IH'; f_equal; ring].
  unfold flux_density. rewrite Ed. simpl. fold (q_at v ev). specialize (H ev (or_introl eq_refl)). unfold same_side in H. destruct (above_cut ev).
  - assert (0 < q_at v ev) by lra. rewrite (Rabs_right (q_at v ev)) by lra. destruct (Rltb_spec (o_epsf o) (q_at v ev)); [|lra]. destruct (Rltb_spec 0 (q_at v ev)); [|lra].
    rewrite IH'. f_equal. ring.
  - destruct (Rltb_spec (o_epsf o) (Rabs (q_at v ev))); [lra|]. rewrite IH'. f_equal. ring.
Qed.
Lemma flux_density_derive ev es : In (ev_energy ev) es -> true_derivative s name i es -> (name = "Prefactor"%string -> proportional s i es) ->
  exists d, flux_density_deriv false s ev name = Ok d /\ derivable_pt_lim (fun v => q_at v ev) v0 d.
Proof.
  intros I T P.
  destruct (prefactor_derive s (fun s => flux_density false s ev) (fun F => F (ev_energy ev) * ev_resp ev) (obind (deriv_at s name (ev_energy ev)) (fun d => Ok (ev_resp ev * d))) name i es)
    as (d & Hd & (v1 & delta & f & Hv1 & Hp & Hf & D)); auto.
  - intros F G E. now rewrite E.
  - intros. ring.
  - intros F D w H. apply derive_eq with (ev_resp ev * D (ev_energy ev)); [|ring]. apply derive_same with (fun v => ev_resp ev * F v (ev_energy ev)); [|intros; ring]. apply SmapGrad.derive_scal. auto.
  - unfold deriv_at. destruct T as (Hn & _). rewrite Hn. simpl. f_equal. ring.
  - exists d. split; [exact Hd|]. assert (v1 = v0) by congruence. subst v1. apply UnbinGrad.derive_loc with (f := f) (delta := delta); auto.
    intros y Hy. specialize (Hf y Hy). unfold of_par, flux_density in Hf. simpl in Hf. injection Hf as <-. reflexivity.
Qed.
Lemma osf_dsum_ok es : true_derivative s name i es -> (name = "Prefactor"%string -> proportional s i es) ->
  forall evs k acc, (forall ev, In ev evs -> In (ev_energy ev) es) -> (forall ev, In ev evs -> same_side (q_at v0 ev) ev) ->
  (match o_weights o with None => True | Some w => (k + length evs <= length w)%nat end) ->
  exists d, osf_dsum o s name evs k acc = Ok (acc + d) /\ derivable_pt_lim (fun v => osum (q_at v) evs k) v0 d.
Proof.
  intros T P. induction evs as [|ev evs IH]; intros k acc I H W; simpl; [exists 0; split; [f_equal; ring|apply derivable_pt_lim_const]|].
  rewrite weight_ok by (destruct (o_weights o); auto; simpl in W; lia). simpl.
  assert (W' : match o_weights o with None => True | Some w => (S k + length evs <= length w)%nat end) by (destruct (o_weights o); auto; simpl in W; lia).
  assert (IH' := fun acc => IH (S k) acc (fun e J => I e (or_intror J)) (fun e J => H e (or_intror J)) W').
  assert (Z : exists d, osf_dsum o s name evs (S k) acc = Ok (acc + d) /\ derivable_pt_lim (fun v => 0 + osum (q_at v) evs (S k)) v0 d).
  { destruct (IH' acc) as (d & E & D). exists d. split; auto. apply derive_same with (fun v => osum (q_at v) evs (S k)); auto. intros; ring. }
  destruct (Rltb (o_epsw o) (weight_of o k)); [|exact Z].
  rewrite Ed. unfold flux_density at 1. cbv iota. simpl obind. assert (Q : sp_val (s_spec s) p (ev_energy ev) * ev_resp ev = q_at v0 ev) by (unfold q_at; now rewrite p_self).
  rewrite Q. specialize (H ev (or_introl eq_refl)). unfold same_side in H. destruct (above_cut ev).
  - assert (0 < q_at v0 ev) by lra. rewrite (Rabs_right (q_at v0 ev)) by lra. destruct (Rltb_spec (o_epsf o) (q_at v0 ev)); [|lra].
    destruct (flux_density_derive ev es (I ev (or_introl eq_refl)) T P) as (d & Hd & D). rewrite Hd. simpl. destruct (Reqb_spec (q_at v0 ev) 0); [lra|].
    destruct (IH' (acc + weight_of o k * d / q_at v0 ev)) as (d' & E & D'). exists (weight_of o k * d / q_at v0 ev + d'). split; [rewrite E; f_equal; ring|].
    apply derive_plus; auto. apply derive_eq with (weight_of o k * (/ q_at v0 ev * d)); [|field; lra]. apply SmapGrad.derive_scal.
    apply (derivable_pt_lim_comp (fun v => q_at v ev) ln); auto. now apply derivable_pt_lim_ln.
  - destruct (Rltb_spec (o_epsf o) (Rabs (q_at v0 ev))); [lra|exact Z].
Qed.
Lemma near_side es : true_derivative s name i es -> (name = "Prefactor"%string -> proportional s i es) ->
  forall evs, (forall ev, In ev evs -> In (ev_energy ev) es) -> (forall ev, In ev evs -> same_side (q_at v0 ev) ev) ->
  exists delta, 0 < delta /\ forall v, Rabs (v - v0) < delta -> forall ev, In ev evs -> same_side (q_at v ev) ev.
Proof.
  intros T P evs I H.
  set (g := fun ev v => if above_cut ev then q_at v ev - o_epsf o else (o_epsf o - q_at v ev) * (o_epsf o + q_at v ev)).
  assert (K : forall ev v, 0 < g ev v <-> same_side (q_at v ev) ev).
  { intros ev v. unfold g, same_side. destruct (above_cut ev); [split; lra|]. split.
    - intros G. apply Rabs_def1; nra.
    - intros G. apply Rabs_def2 in G. nra. }
  destruct (SmapGrad.all_pos_near g v0 evs) as (delta & Hd & Hp).
  - intros ev J. split; [|apply K; auto]. destruct (flux_density_derive ev es (I ev J) T P) as (d & _ & D). unfold g. destruct (above_cut ev).
    + exists (d - 0). apply derivable_pt_lim_minus; auto. apply derivable_pt_lim_const.
    + eexists. apply (derivable_pt_lim_mult (fun v => o_epsf o - q_at v ev) (fun v => o_epsf o + q_at v ev)).
      * apply derivable_pt_lim_minus; [apply derivable_pt_lim_const|eauto].
      * apply derivable_pt_lim_plus; [apply derivable_pt_lim_const|eauto].
  - exists delta. split; auto. intros v Hv' ev J. apply K. auto.
Qed.
Lemma osf_derive : well_formed s -> events_regular o s -> let es := s_en s ++ map ev_energy (o_events o) in
  true_derivative s name i es -> (name = "Prefactor"%string -> proportional s i es) ->
  exists d, osf_deriv o s name = Ok d /\ partial_at (of_par s (osf_value o)) p i d.
Proof.
  intros W (_ & _ & Wt & Rg) es T P.
  assert (T1 : true_derivative s name i (s_en s)).
  { destruct T as (A & w & B & C). split; auto. exists w. split; auto. intros. apply C. apply in_or_app; auto. }
  assert (P1 : name = "Prefactor"%string -> proportional s i (s_en s)) by (intros E; destruct (P E) as [c Hc]; exists c; intros; apply Hc; apply in_or_app; auto).
  destruct (npred_derive s name i W T1 P1) as (dn & En & (v1 & d1 & f1 & Hv1 & Hd1 & F1 & D1)). assert (v1 = v0) by congruence. subst v1.
  assert (I : forall ev, In ev (o_events o) -> In (ev_energy ev) es) by (intros; apply in_or_app; right; now apply in_map).
  assert (Sd : forall ev, In ev (o_events o) -> same_side (q_at v0 ev) ev).
  { intros ev J. destruct (Rg ev J) as [Q0 Q1]. unfold same_side, above_cut, q_at. rewrite p_self. destruct (Rltb_spec (o_epsf o) (sp_val (s_spec s) p (ev_energy ev) * ev_resp ev)); auto.
    rewrite Rabs_right by lra. lra. }
  destruct (osf_dsum_ok es T P (o_events o) 0 0 I Sd Wt) as (ds & Es & Ds).
  destruct (near_side es T P (o_events o) I Sd) as (d2 & Hd2 & Nr).
  exists (0 + ds - dn). unfold osf_deriv. rewrite Es. simpl. rewrite En. simpl. split; auto.
  exists v0, (Rmin d1 d2), (fun v => osum (q_at v) (o_events o) 0 - f1 v). split; auto. split; [now apply Rmin_glb_lt|]. split.
  - intros v Hv'. unfold of_par, osf_value. assert (A1 : Rabs (v - v0) < d1) by (eapply Rlt_le_trans; [exact Hv'|apply Rmin_l]). assert (A2 : Rabs (v - v0) < d2) by (eapply Rlt_le_trans; [exact Hv'|apply Rmin_r]).
    rewrite (osf_sum_ok v) by auto. simpl. specialize (F1 v A1). unfold of_par in F1. destruct (npred (with_par s (upd p i v))); simpl in *; try discriminate. injection F1 as ->. f_equal. ring.
  - rewrite Rplus_0_l. apply derivable_pt_lim_minus; auto.
Qed.
End Osf.

(** * Pixels *)
Section Pix.
Context {dir : Type} (sepn : dir -> dir -> R) (radec : R -> R -> dir) (xresp : R -> nat -> R -> R) (d : dir) (omega : R) (types : list nat) (emin emax : R).
Notation S m e := (sp_val (s_spec (ms_src m)) (s_par (ms_src m)) e).
Notation wt := (pixel_weight sepn xresp d).
Lemma pixel_map_ok m ty e : pixel_map sepn xresp d m ty e = Ok (S m e * wt m ty e).
Proof.
  unfold pixel_map, pixel_weight. destruct (ms_dir m) as [sd|]; [|f_equal; ring]. destruct (Rltb_spec (sepn sd d) 90); destruct (Rlt_dec (sepn sd d) 90); try lra; simpl; auto. f_equal; ring.
Qed.
Lemma fold_sum {A} (f : R -> A -> outcome R) (g : A -> R) : (forall acc a, f acc a = Ok (acc + g a)) -> forall l acc, mfold f l acc = Ok (acc + Rsum (map g l)).
Proof.
  intros H. induction l as [|a l IH]; intros acc; simpl; [f_equal; ring|]. rewrite H. simpl. rewrite IH. f_equal. ring.
Qed.
Lemma model_counts_ok model : model_counts sepn xresp d omega types emin emax model = Ok (log_counts sepn xresp d omega types emin emax model).
Proof.
  unfold model_counts, log_counts. rewrite (fold_sum _ (fun m => Rsum (map (fun ty => let f e := S m e * wt m ty e in (f emin * emin + f emax * emax) / 2 * omega * ln (emax / emin)) types))); [rewrite Rplus_0_l; reflexivity|].
  intros acc m. rewrite (fold_sum _ (fun ty => let f e := S m e * wt m ty e in (f emin * emin + f emax * emax) / 2 * omega * ln (emax / emin))); auto.
  intros acc' ty. rewrite !pixel_map_ok. reflexivity.
Qed.
(** the derivatives, where the shortcut does not apply *)
Definition index_of (m : msource (dir := dir)) (n : string) : nat := match find_name n (sp_names (s_spec (ms_src m))) with Some i => i | None => 0%nat end.
Definition entry (m : msource) (n : string) : R :=
  Rsum (map (fun ty => let f e := sp_der (s_spec (ms_src m)) (s_par (ms_src m)) (index_of m n) e * wt m ty e in (f emin + f emax) / 2 * omega * (emax - emin)) types).
Lemma pixel_dmap_ok m n ty e : plain_free m -> In n (ms_free m) ->
  pixel_dmap sepn radec xresp d m n ty e = Ok (sp_der (s_spec (ms_src m)) (s_par (ms_src m)) (index_of m n) e * wt m ty e).
Proof.
  intros N I. destruct (N n I) as [[i Hi] Z]. unfold pixel_dmap, pixel_weight, index_of. rewrite Hi. destruct (ms_dir m) as [sd|]; [|f_equal; ring].
  destruct (Rltb_spec (sepn sd d) 90); destruct (Rlt_dec (sepn sd d) 90); try lra; [|f_equal; ring]. unfold by_prefactor, deriv_at. rewrite Hi.
  destruct (String.eqb_spec n "Prefactor") as [E|E]; [|simpl; f_equal; ring]. unfold param_value. rewrite Hi. unfold vec_at. rewrite (Z E i Hi). simpl.
  destruct (Reqb_spec 0 0); [|lra]. simpl. f_equal. ring.
Qed.
Lemma types_loop (g : nat -> R) (step : list R -> nat -> outcome (list R)) k : 
  (forall ds ty, step ds ty = obind (vec_at ds k) (fun old => Ok (upd ds k (old + g ty)))) ->
  forall l ds, (k < length ds)%nat -> mfold step l ds = Ok (upd ds k (nth k ds 0 + Rsum (map g l))).
Proof.
  intros H. induction l as [|ty l IH]; intros ds Hk; simpl.
  - f_equal. rewrite Rplus_0_r. symmetry. clear - Hk. revert k Hk. induction ds as [|a ds IH]; intros [|k] Hk; simpl in *; auto; try lia. f_equal. apply IH. lia.
  - rewrite H. rewrite vec_at_nth by auto. simpl. rewrite IH by (now rewrite upd_length). f_equal. rewrite nth_upd_eq by auto.
    assert (U : forall (l : list R) k x y, upd (upd l k x) k y = upd l k y) by (clear; induction l as [|a l IH]; intros [|k] x y; simpl; f_equal; auto). rewrite U. f_equal. ring.
Qed.
Lemma upd_head (pre post : list R) x y : upd (pre ++ x :: post) (length pre) y = pre ++ y :: post.
Proof. induction pre; simpl; f_equal; auto. Qed.
Lemma names_loop m : plain_free m -> forall names, incl names (ms_free m) -> forall pre post, 
  mfold (fun st name =>
         obind (mfold (fun ds ty =>
           obind (pixel_dmap sepn radec xresp d m name ty emin) (fun m1 => obind (pixel_dmap sepn radec xresp d m name ty emax) (fun m2 =>
           obind (vec_at ds (snd st)) (fun old => Ok (upd ds (snd st) (old + (m1 + m2) / 2 * omega * (emax - emin))))))) types (fst st)) (fun ds =>
         Ok (ds, Datatypes.S (snd st)))) names (pre ++ repeat 0 (length names) ++ post, length pre) =
  Ok (pre ++ map (entry m) names ++ post, (length pre + length names)%nat).
Proof.
  intros N. induction names as [|n names IH]; intros I pre post; simpl; [now rewrite Nat.add_0_r|].
  rewrite (types_loop (fun ty => let f e := sp_der (s_spec (ms_src m)) (s_par (ms_src m)) (index_of m n) e * wt m ty e in (f emin + f emax) / 2 * omega * (emax - emin)) _ (length pre)).
  - simpl. rewrite upd_head. rewrite (app_nth2 pre) by lia. rewrite Nat.sub_diag. simpl nth. rewrite Rplus_0_l. fold (entry m n).
    specialize (IH (fun x J => I x (or_intror J)) (pre ++ [entry m n]) post). rewrite <- !app_assoc in IH. simpl in IH. rewrite app_length in IH. simpl in IH.
    replace (length pre + 1)%nat with (Datatypes.S (length pre)) in IH by lia. rewrite IH. do 2 f_equal. lia.
  - intros ds ty. rewrite !pixel_dmap_ok by (auto; apply I; left; auto). reflexivity.
  - rewrite !app_length. simpl. lia.
Qed.
Lemma free_derivs_ok model : Forall plain_free model ->
  free_derivs sepn radec xresp d omega types (n_free model) emin emax model [] = Ok (flat_map (fun m => map (entry m) (ms_free m)) model).
Proof.
  intros F. unfold free_derivs, vec_resize. rewrite firstn_nil. simpl length. rewrite Nat.sub_0_r. simpl app.
  assert (G : forall pre, mfold (fun st m => mfold (fun st name =>
         obind (mfold (fun ds ty =>
           obind (pixel_dmap sepn radec xresp d m name ty emin) (fun m1 => obind (pixel_dmap sepn radec xresp d m name ty emax) (fun m2 =>
           obind (vec_at ds (snd st)) (fun old => Ok (upd ds (snd st) (old + (m1 + m2) / 2 * omega * (emax - emin))))))) types (fst st)) (fun ds =>
         Ok (ds, Datatypes.S (snd st)))) (ms_free m) st) model (pre ++ repeat 0 (n_free model), length pre) =
    Ok (pre ++ flat_map (fun m => map (entry m) (ms_free m)) model, (length pre + n_free model)%nat)).
  { induction F as [|m model N F IH]; intros pre; simpl; [now rewrite Nat.add_0_r|]. rewrite repeat_app. rewrite (names_loop m N (ms_free m)) by apply incl_refl. simpl.
    specialize (IH (pre ++ map (entry m) (ms_free m))). rewrite <- !app_assoc in IH. rewrite !app_length, map_length in IH. rewrite IH. do 2 f_equal. lia. }
  specialize (G []). simpl in G. rewrite G. reflexivity.
Qed.
Lemma entry_derive m n i model1 model2 : find_name n (sp_names (s_spec (ms_src m))) = Some i -> true_derivative (ms_src m) n i [emin; emax] ->
  exists v0, nth_error (s_par (ms_src m)) i = Some v0 /\
    derivable_pt_lim (fun v => linear_counts sepn xresp d omega types emin emax (model1 ++ ms_with m (upd (s_par (ms_src m)) i v) :: model2)) v0 (entry m n).
Proof.
  intros Hi (_ & v0 & Hv & D). exists v0. split; auto. unfold linear_counts.
  assert (Ra : forall l1 l2 : list R, Rsum (l1 ++ l2) = Rsum l1 + Rsum l2) by (induction l1; intros; simpl; [ring|rewrite IHl1; ring]).
  set (C := fun m => Rsum (map (fun ty => let f e := S m e * wt m ty e in (f emin + f emax) / 2 * omega * (emax - emin)) types)).
  apply derive_same with (fun v => (Rsum (map C model1) + Rsum (map C model2)) + C (ms_with m (upd (s_par (ms_src m)) i v))).
  2: { intros v. rewrite map_app, Ra. simpl. fold C. ring. }
  apply derive_eq with (0 + entry m n); [|ring]. apply derive_plus; [apply derivable_pt_lim_const|].
  unfold C, entry, index_of. rewrite Hi. apply (SmapGrad.derive_Rsum (fun ty v => let f e := S (ms_with m (upd (s_par (ms_src m)) i v)) e * wt (ms_with m (upd (s_par (ms_src m)) i v)) ty e in (f emin + f emax) / 2 * omega * (emax - emin))
    (fun ty => let f e := sp_der (s_spec (ms_src m)) (s_par (ms_src m)) i e * wt m ty e in (f emin + f emax) / 2 * omega * (emax - emin))).
  intros ty _. simpl. set (c := omega * (emax - emin) / 2). set (w1 := wt m ty emin). set (w2 := wt m ty emax).
  change (derivable_pt_lim (fun v => (sp_val (s_spec (ms_src m)) (upd (s_par (ms_src m)) i v) emin * w1 + sp_val (s_spec (ms_src m)) (upd (s_par (ms_src m)) i v) emax * w2) / 2 * omega * (emax - emin)) v0
    ((sp_der (s_spec (ms_src m)) (s_par (ms_src m)) i emin * w1 + sp_der (s_spec (ms_src m)) (s_par (ms_src m)) i emax * w2) / 2 * omega * (emax - emin))).
  apply derive_eq with ((c * w1) * sp_der (s_spec (ms_src m)) (s_par (ms_src m)) i emin + (c * w2) * sp_der (s_spec (ms_src m)) (s_par (ms_src m)) i emax); [|unfold c; field].
  apply derive_same with (fun v => (c * w1) * sp_val (s_spec (ms_src m)) (upd (s_par (ms_src m)) i v) emin + (c * w2) * sp_val (s_spec (ms_src m)) (upd (s_par (ms_src m)) i v) emax); [|intros; unfold c; field].
  apply derive_plus; apply SmapGrad.derive_scal; apply D; simpl; auto.
Qed.
End Pix.

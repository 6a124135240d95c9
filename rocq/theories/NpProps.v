(** C39: derivatives of predicted counts, fluxes, the one-source likelihood and the counts of a pixel.
    C58: predicted counts in part of the energy range. *)
From Coq Require Import Reals String List Bool PeanoNat Lra Lia.
From Verif Require Import Base DerivSpec AccumModel AccumProofs TrapModel TrapSpec TrapProofs NpModel NpSpec NpProofs NpRange NpOsf.
From Verif Require SmapGrad UnbinGrad.
Import ListNotations.
Local Open Scope R_scope.
Local Open Scope list_scope.

(** ** Helpers for the counterexamples *)
Lemma partial_unique F p i d1 d2 : partial_at F p i d1 -> partial_at F p i d2 -> d1 = d2.
Proof.
  intros (v & a & f & Hv & Ha & Hf & Df) (w & b & g & Hw & Hb & Hg & Dg). assert (w = v) by congruence. subst w.
  apply (uniqueness_limite g v); auto. apply UnbinGrad.derive_loc with (f := f) (delta := Rmin a b); auto; [now apply Rmin_glb_lt|].
  intros y Hy. assert (Some (f y) = Some (g y)) as E; [|now injection E]. rewrite <- Hf, <- Hg; auto; eapply Rlt_le_trans; eauto using Rmin_l, Rmin_r.
Qed.
Definition const_spec (name : string) : spectrum := {| sp_names := [name]; sp_val := fun p _ => nth 0 p 0; sp_der := fun _ _ _ => 1 |}.
Definition square_spec : spectrum := {| sp_names := ["Prefactor"%string]; sp_val := fun p _ => nth 0 p 0 * nth 0 p 0; sp_der := fun p _ _ => 2 * nth 0 p 0 |}.
Definition src_of (sp : spectrum) (v : R) : source := {| s_spec := sp; s_par := [v]; s_en := [exp 0; exp 1; exp 2]; s_ex := [1; 1; 1] |}.
Lemma src_wf sp v : well_formed (src_of sp v).
Proof. repeat split; simpl; auto. repeat constructor; apply exp_pos. Qed.
Lemma const_true name v es : true_derivative (src_of (const_spec name) v) name 0 es.
Proof. split; [simpl; now rewrite String.eqb_refl|]. exists v. split; auto. intros. simpl. apply derivable_pt_lim_id. Qed.
Lemma square_true v es : true_derivative (src_of square_spec v) "Prefactor" 0 es.
Proof.
  split; [reflexivity|]. exists v. split; auto. intros. simpl. apply derive_eq with (1 * v + v * 1); [|ring].
  apply (derivable_pt_lim_mult (fun v => v) (fun v => v)); apply derivable_pt_lim_id.
Qed.

(** ** C39 *)
(** Npred is the trapezoidal rule over the logarithm of the energy for the product of spectrum and exposure. *)
Theorem C39_npred_value : forall s, well_formed s ->
  npred s = Ok (log_rule (s_en s) (products (sp_val (s_spec s) (s_par s)) (s_en s) (s_ex s))).
Proof. intros. now apply npred_ok. Qed.
Print Assumptions C39_npred_value.

(** NpredDeriv is the derivative of Npred, if a parameter called "Prefactor" is a factor of the spectrum. *)
Theorem C39_npred_partial : forall s name i, well_formed s -> true_derivative s name i (s_en s) ->
  (name = "Prefactor"%string -> proportional s i (s_en s)) ->
  exists d, npred_deriv s name = Ok d /\ partial_at (of_par s npred) (s_par s) i d.
Proof. intros. now apply npred_derive. Qed.
Print Assumptions C39_npred_partial.

Lemma square_npred : partial_at (of_par (src_of square_spec 1) npred) [1] 0 (2 * log_rule (s_en (src_of square_spec 1)) (products (fun _ => 1) (s_en (src_of square_spec 1)) [1; 1; 1])).
Proof.
  destruct (plain_derive (src_of square_spec 1) npred (fun F => log_rule (s_en (src_of square_spec 1)) (products F (s_en (src_of square_spec 1)) [1; 1; 1]))
    (Ok (2 * log_rule (s_en (src_of square_spec 1)) (products (fun _ => 1) (s_en (src_of square_spec 1)) [1; 1; 1]))) "Prefactor" 0 (s_en (src_of square_spec 1))) as (d & E & P).
  - intros p. exact (npred_ok (with_par (src_of square_spec 1) p) (src_wf square_spec 1)).
  - intros. now apply derive_log_rule.
  - rewrite <- log_rule_scal. do 2 apply f_equal. apply products_ext. intros. simpl. ring.
  - apply square_true.
  - injection E as <-. exact P.
Qed.
(** Without that condition it is not, although the spectrum's own derivative is right: the shortcut gives the value over the parameter. *)
Theorem C39_npred_refuted : exists s i d, well_formed s /\ true_derivative s "Prefactor" i (s_en s) /\
  npred_deriv s "Prefactor" = Ok d /\ ~ partial_at (of_par s npred) (s_par s) i d.
Proof.
  exists (src_of square_spec 1), 0%nat. set (s := src_of square_spec 1). set (L := log_rule (s_en s) (products (fun _ => 1) (s_en s) [1; 1; 1])).
  assert (Lp : 0 < L).
  { unfold L. rewrite log_rule_products. simpl. rewrite !ln_exp. pose proof (exp_pos 0). pose proof (exp_pos 1). pose proof (exp_pos 2). lra. }
  exists (L / 1). split; [apply src_wf|]. split; [apply square_true|]. split.
  - unfold npred_deriv, by_prefactor. rewrite npred_ok by apply src_wf. simpl String.eqb. cbv iota. unfold param_value. simpl find_name. cbv iota. simpl.
    destruct (Reqb_spec 1 0); [lra|]. unfold L. do 3 f_equal. apply products_ext. intros. unfold s. simpl. ring.
  - intros P. assert (E := partial_unique _ _ _ _ _ P square_npred). fold s L in E. lra.
Qed.
Print Assumptions C39_npred_refuted.

(** The same in a range of energies. *)
Theorem C39_npred_range_partial : forall s name i emin emax es xs, well_formed s -> exposure_arrays s emin emax 0 = Ok (es, xs) ->
  true_derivative s name i es -> (name = "Prefactor"%string -> proportional s i es) ->
  npred_range s emin emax = Ok (log_rule es (products (sp_val (s_spec s) (s_par s)) es xs)) /\
  exists d, npred_deriv_range s name emin emax = Ok d /\ partial_at (of_par s (fun s => npred_range s emin emax)) (s_par s) i d.
Proof. intros s name i emin emax es xs W H T P. split; [now apply npred_range_ok|]. eapply npred_range_derive; eauto. Qed.
Print Assumptions C39_npred_range_partial.

(** pixelCountsDeriv is the derivative of pixelCounts, with both rules. *)
Theorem C39_cell : forall linear s emin emax w1 w2 name i, true_derivative s name i [emin; emax] ->
  exists d, pixel_counts_deriv linear s emin emax w1 w2 name = Ok d /\ partial_at (of_par s (fun s => pixel_counts linear s emin emax w1 w2)) (s_par s) i d.
Proof. intros. now apply pixel_derive. Qed.
Print Assumptions C39_cell.

(** The derivatives of the photon flux and of the energy flux, over the source's own energies or over a range with at least two points. *)
Theorem C39_flux : forall s ang a name i,
  match a with Own => well_formed s | Range emin emax npts => 0 < emin /\ (2 <= npts)%nat end -> true_derivative s name i (grid_of s a) ->
  (exists d, flux_deriv s ang name a = Ok d /\ partial_at (of_par s (fun s => flux s ang a)) (s_par s) i d) /\
  (exists d, energy_flux_deriv s ang name a = Ok d /\ partial_at (of_par s (fun s => energy_flux s ang a)) (s_par s) i d).
Proof.
  intros s ang a name i H T. assert (G : (2 <= length (grid_of s a))%nat /\ Forall (Rlt 0) (grid_of s a)).
  { destruct a; simpl; [destruct H as (A & B & _); auto|]. rewrite log_grid_length. split; [tauto|]. apply log_grid_pos. tauto. }
  destruct G as [G1 G2]. split; [now apply flux_derive|now apply energy_flux_derive].
Qed.
Print Assumptions C39_flux.

(** What the fluxes are: the rule applied to the spectrum, or to energy times spectrum, times the angular integral. *)
Theorem C39_flux_value : forall s ang a,
  match a with Own => well_formed s | Range emin emax npts => 0 < emin /\ (2 <= npts)%nat end ->
  let es := grid_of s a in
  flux s ang a = Ok (log_rule es (products (sp_val (s_spec s) (s_par s)) es (map ang es))) /\
  energy_flux s ang a = Ok (log_rule es (products (fun e => e * sp_val (s_spec s) (s_par s) e) es (map ang es))) /\
  match a with
  | Own => es = s_en s
  | Range emin emax npts => length es = npts /\ (0 < emax -> forall k, (k < npts)%nat -> nth k es 0 = exp (ln emin + INR k * ((ln emax - ln emin) / (INR npts - 1))))
  end.
Proof.
  intros s ang a H es. assert (G : (2 <= length es)%nat /\ Forall (Rlt 0) es).
  { unfold es. destruct a; simpl; [destruct H as (A & B & _); auto|]. rewrite log_grid_length. split; [tauto|]. apply log_grid_pos. tauto. }
  destruct G as [G1 G2]. split; [now apply energy_integral_ok|]. split; [now apply energy_integral_ok|].
  destruct a as [|emin emax npts]; simpl in *; auto. split; [apply log_grid_length|]. intros Hx k Hk. unfold es, log_grid.
  set (st := ln (emax / emin) / INR (npts - 1)). rewrite (nth_indep _ 0 (emin * exp (st * INR 0))) by (now rewrite map_length, seq_length).
  rewrite (map_nth (fun k => emin * exp (st * INR k))), seq_nth by auto. simpl plus. unfold st.
  rewrite minus_INR by lia. replace (ln (emax / emin)) with (ln emax - ln emin) by (unfold Rdiv; rewrite ln_mult, ln_Rinv; [ring|tauto|auto|apply Rinv_0_lt_compat; tauto]).
  rewrite exp_plus, exp_ln by tauto. f_equal. f_equal. simpl. ring.
Qed.
Print Assumptions C39_flux_value.

(** The derivative of the one-source likelihood. *)
Theorem C39_one_source_partial : forall o s name i, well_formed s -> events_regular o s -> 
  let es := s_en s ++ map ev_energy (o_events o) in
  true_derivative s name i es -> (name = "Prefactor"%string -> proportional s i es) ->
  exists d, osf_deriv o s name = Ok d /\ partial_at (of_par s (osf_value o)) (s_par s) i d.
Proof.
  intros o s name i W Rg es T P. destruct T as (A & v0 & B & C). destruct Rg as (R1 & R2 & R3 & R4).
  apply (osf_derive o s name i v0); auto; [repeat split; auto; apply R4; auto|]. split; auto. exists v0; auto.
Qed.
Print Assumptions C39_one_source_partial.

(** Pixel::modelCounts applies the rule over the logarithm of the energy to the point sources within 90 degrees. *)
Theorem C39_pixel_value : forall dir (sepn : dir -> dir -> R) xresp d omega types emin emax model,
  model_counts sepn xresp d omega types emin emax model = Ok (log_counts sepn xresp d omega types emin emax model).
Proof. intros. apply model_counts_ok. Qed.
Print Assumptions C39_pixel_value.

(** Pixel::getFreeDerivs fills an empty vector with the derivatives of the counts by the rule over the energy, one for each free parameter
    in the order of the sources, unless there is a free non-zero "Prefactor". *)
Theorem C39_pixel_partial : forall dir (sepn : dir -> dir -> R) radec xresp d omega types emin emax pre m post k n i,
  let model := pre ++ m :: post in
  Forall plain_free model -> nth_error (ms_free m) k = Some n -> true_derivative (ms_src m) n i [emin; emax] ->
  exists ds g v0, free_derivs sepn radec xresp d omega types (n_free model) emin emax model [] = Ok ds /\ length ds = n_free model /\
    nth_error ds (n_free pre + k) = Some g /\ nth_error (s_par (ms_src m)) i = Some v0 /\
    derivable_pt_lim (fun v => linear_counts sepn xresp d omega types emin emax (pre ++ ms_with m (upd (s_par (ms_src m)) i v) :: post)) v0 g.
Proof.
  intros dir sepn radec xresp d omega types emin emax pre m post k n i model F Hk T.
  exists (flat_map (fun m => map (entry sepn xresp d omega types emin emax m) (ms_free m)) model), (entry sepn xresp d omega types emin emax m n).
  destruct (entry_derive sepn xresp d omega types emin emax m n i pre post) as (v0 & Hv & D); auto; [apply T|]. exists v0.
  assert (Lf : forall l, length (flat_map (fun m => map (entry sepn xresp d omega types emin emax m) (ms_free m)) l) = n_free l) by (induction l; simpl; auto; rewrite app_length, map_length; auto).
  split; [now apply free_derivs_ok|]. split; [apply Lf|]. split; [|auto].
  unfold model. rewrite flat_map_app. rewrite nth_error_app2 by (rewrite Lf; lia). rewrite Lf. replace (n_free pre + k - n_free pre)%nat with k by lia.
  simpl. rewrite nth_error_app1 by (rewrite map_length; apply nth_error_Some; congruence). now apply map_nth_error.
Qed.
Print Assumptions C39_pixel_partial.

Definition one_model (sp : spectrum) (name : string) : msource (dir := R) := {| ms_dir := Some 10; ms_src := src_of sp 1; ms_free := [name] |}.
Lemma plain_index : plain_free (one_model (const_spec "Index") "Index").
Proof. intros n [<-|[]]. split; [exists 0%nat; reflexivity|discriminate]. Qed.
(** They are not the derivatives of modelCounts: the two use different rules. *)
Theorem C39_pixel_rule_refuted : exists (sepn : R -> R -> R) radec xresp d omega types emin emax m name v0 g,
  0 < emin < emax /\ plain_free m /\ true_derivative (ms_src m) name 0 [emin; emax] /\ nth_error (s_par (ms_src m)) 0 = Some v0 /\
  free_derivs sepn radec xresp d omega types 1 emin emax [m] [] = Ok [g] /\
  ~ derivable_pt_lim (fun v => log_counts sepn xresp d omega types emin emax [ms_with m (upd (s_par (ms_src m)) 0 v)]) v0 g.
Proof.
  set (sepn := fun a b : R => Rabs (a - b)). set (xr := fun (_ : R) (_ : nat) (_ : R) => 1).
  exists sepn, (fun r _ => r), xr, 10, 1, [0%nat], 1, (exp 2), (one_model (const_spec "Index") "Index"), "Index"%string, 1, (exp 2 - 1).
  assert (E2 : 1 < exp 2) by (rewrite <- exp_0; apply exp_increasing; lra).
  assert (S0 : sepn 10 10 = 0) by (unfold sepn; rewrite Rminus_diag_eq, Rabs_R0; auto).
  assert (Wt : forall sp p e, pixel_weight sepn xr 10 (ms_with (one_model sp "Index") p) 0 e = 1).
  { intros. unfold pixel_weight. simpl. rewrite S0. destruct (Rlt_dec 0 90); [reflexivity|lra]. }
  assert (Wt' : forall sp e, pixel_weight sepn xr 10 (one_model sp "Index") 0 e = 1).
  { intros. unfold pixel_weight. simpl. rewrite S0. destruct (Rlt_dec 0 90); [reflexivity|lra]. }
  split; [lra|]. split; [apply plain_index|]. split; [apply const_true|]. split; [reflexivity|]. split.
  - change 1%nat with (n_free [one_model (const_spec "Index") "Index"]). rewrite free_derivs_ok by (constructor; [apply plain_index|constructor]).
    f_equal. simpl flat_map. f_equal. unfold entry. cbn [map Rsum fold_right]. cbv zeta. rewrite !Wt'. simpl. field.
  - intros D. assert (D2 : derivable_pt_lim (fun v => log_counts sepn xr 10 1 [0%nat] 1 (exp 2) [ms_with (one_model (const_spec "Index") "Index") (upd [1] 0 v)]) 1 (1 + exp 2)).
    { apply derive_same with (fun v => (1 + exp 2) * v); [apply derive_eq with ((1 + exp 2) * 1); [|ring]; apply SmapGrad.derive_scal, derivable_pt_lim_id|].
      intros v. unfold log_counts. cbn [map Rsum fold_right]. cbv zeta. rewrite !Wt. simpl. replace (exp 2 / 1) with (exp 2) by field. rewrite ln_exp. field. }
    assert (E := uniqueness_limite _ _ _ _ D D2). lra.
Qed.
Print Assumptions C39_pixel_rule_refuted.

(** With a free non-zero "Prefactor" the response is taken at another separation, and they are the derivatives by neither rule. *)
Theorem C39_pixel_prefactor_refuted : exists (sepn : R -> R -> R) radec xresp d omega types emin emax m name v0 g,
  0 < emin < emax /\ true_derivative (ms_src m) name 0 [emin; emax] /\ proportional (ms_src m) 0 [emin; emax] /\ nth_error (s_par (ms_src m)) 0 = Some v0 /\
  free_derivs sepn radec xresp d omega types 1 emin emax [m] [] = Ok [g] /\
  ~ derivable_pt_lim (fun v => linear_counts sepn xresp d omega types emin emax [ms_with m (upd (s_par (ms_src m)) 0 v)]) v0 g.
Proof.
  set (sepn := fun a b : R => Rabs (a - b)). set (xr := fun (r : R) (_ : nat) (_ : R) => 90 - r).
  exists sepn, (fun r _ => r), xr, 12, 1, [0%nat], 1, 2, (one_model (const_spec "Prefactor") "Prefactor"), "Prefactor"%string, 1, 82.
  assert (S1 : sepn 10 12 = 2) by (unfold sepn; rewrite Rabs_left; lra). assert (S2 : sepn 12 10 = 2) by (unfold sepn; rewrite Rabs_right; lra).
  assert (S3 : sepn 2 10 = 8) by (unfold sepn; rewrite Rabs_left; lra).
  split; [lra|]. split; [apply const_true|]. split; [exists (fun _ => 1); intros; simpl; ring|]. split; [reflexivity|]. split.
  - assert (Dm : forall e, pixel_dmap sepn (fun r _ => r) xr 12 (one_model (const_spec "Prefactor") "Prefactor") "Prefactor" 0 e = Ok 82).
    { intros e. unfold pixel_dmap. simpl ms_dir. cbv iota. rewrite S1, S2. destruct (Rltb_spec 2 90); [|lra]. unfold by_prefactor. rewrite String.eqb_refl.
      unfold param_value, vec_at. simpl. destruct (Reqb_spec 1 0); [lra|]. simpl. rewrite S3. unfold xr. f_equal. field. }
    unfold free_derivs, vec_resize. simpl. rewrite !Dm. simpl. f_equal. f_equal. field.
  - intros D. assert (D2 : derivable_pt_lim (fun v => linear_counts sepn xr 12 1 [0%nat] 1 2 [ms_with (one_model (const_spec "Prefactor") "Prefactor") (upd [1] 0 v)]) 1 88).
    { apply derive_same with (fun v => 88 * v); [apply derive_eq with (88 * 1); [|ring]; apply SmapGrad.derive_scal, derivable_pt_lim_id|].
      intros v. unfold linear_counts, pixel_weight. simpl. rewrite S1, S2. destruct (Rlt_dec 2 90); [|lra]. unfold xr. field. }
    assert (E := uniqueness_limite _ _ _ _ D D2). lra.
Qed.
Print Assumptions C39_pixel_prefactor_refuted.

(** A vector that is not empty is added to. *)
Theorem C39_pixel_reuse_refuted : exists (sepn : R -> R -> R) radec xresp d omega types emin emax model ds, Forall plain_free model /\ length ds = n_free model /\
  free_derivs sepn radec xresp d omega types (n_free model) emin emax model ds <> free_derivs sepn radec xresp d omega types (n_free model) emin emax model [].
Proof.
  exists (fun a b => 0), (fun r _ => r), (fun _ _ _ => 1), 10, 1, [0%nat], 1, 2, [one_model (const_spec "Index") "Index"], [5].
  split; [constructor; [apply plain_index|constructor]|]. split; [reflexivity|].
  assert (Dm : forall e, pixel_dmap (fun a b : R => 0) (fun r _ => r) (fun _ _ _ => 1) 10 (one_model (const_spec "Index") "Index") "Index" 0 e = Ok 1).
  { intros e. unfold pixel_dmap. simpl ms_dir. cbv iota zeta. destruct (Rltb_spec 0 90); [|lra]. simpl. unfold by_prefactor; simpl. unfold deriv_at; simpl. f_equal. ring. }
  unfold free_derivs, vec_resize. simpl. rewrite !Dm. simpl. intros E. injection E. lra.
Qed.
Print Assumptions C39_pixel_reuse_refuted.

(** The hypotheses are met. *)
Example C39_case : let s := src_of (const_spec "Prefactor") 3 in
  let o := {| o_edisp := false; o_events := [{| ev_energy := 5; ev_resp := 2 |}]; o_weights := Some [1]; o_epsw := 1 / 1000; o_epsf := 1 / 100 |} in
  well_formed s /\ (forall es, true_derivative s "Prefactor" 0 es /\ proportional s 0 es) /\ events_regular o s /\ plain_free (one_model (const_spec "Index") "Index").
Proof.
  intros s o. split; [apply src_wf|]. split; [intros es; split; [apply const_true|exists (fun _ => 1); intros; simpl; ring]|]. split; [|apply plain_index].
  repeat split; simpl; auto; try lra; intros; destruct H as [<-|[]]; simpl; lra.
Qed.

(** ** C58 *)
Lemma on_line_nonneg es xs e x : Forall (Rlt 0) es -> Forall (Rle 0) xs -> on_line es xs e x -> 0 <= x.
Proof.
  intros P X (k & e0 & e1 & x0 & x1 & A & B & C & D & [E1 E2] & ->). rewrite Forall_forall in P, X.
  assert (0 < e0) by (eapply P, nth_error_In; eauto). assert (0 <= x0) by (eapply X, nth_error_In; eauto). assert (0 <= x1) by (eapply X, nth_error_In; eauto).
  unfold line. cbn [fst snd].
  destruct (Req_dec e0 e1) as [->|Ne]. { assert (e = e1) by lra. subst. replace (ln e1 - ln e1) with 0 by ring. unfold Rdiv. rewrite Rmult_0_l, Rmult_0_r. lra. }
  assert (L1 : ln e0 < ln e1) by (apply ln_increasing; lra).
  assert (L2 : ln e0 <= ln e) by (destruct E1 as [E1|<-]; [left; apply ln_increasing; lra|lra]).
  assert (L3 : ln e <= ln e1) by (destruct E2 as [E2|<-]; [left; apply ln_increasing; lra|lra]).
  set (t := (ln e - ln e0) / (ln e1 - ln e0)). assert (T0 : 0 <= t) by (apply Rmult_le_pos; [lra|left; apply Rinv_0_lt_compat; lra]).
  assert (T1 : t <= 1) by (unfold t; apply Rmult_le_reg_r with (ln e1 - ln e0); [lra|]; unfold Rdiv; rewrite Rmult_assoc, Rinv_l by lra; lra).
  nra.
Qed.
(** A range that covers the grid: the counts are those of the whole grid. *)
Theorem C58_whole : forall s emin emax, well_formed s -> emin <= nth 0 (s_en s) 0 -> last (s_en s) 0 <= emax -> npred_range s emin emax = npred s.
Proof.
  intros s emin emax W H1 H2. rewrite npred_ok by auto. apply npred_range_ok; auto. unfold exposure_arrays. destruct (s_en s) as [|f l] eqn:E; [destruct W as (A & _); rewrite E in A; simpl in A; lia|].
  rewrite <- E in *. assert (F : f = nth 0 (s_en s) 0) by (now rewrite E). rewrite F. cbv zeta. rewrite clip_lo, clip_hi, Rmax_right, Rmin_right by auto.
  destruct (Reqb_spec (nth 0 (s_en s) 0) (nth 0 (s_en s) 0)); [|congruence]. destruct (Reqb_spec (last (s_en s) 0) (last (s_en s) 0)); [|congruence]. reflexivity.
Qed.
Print Assumptions C58_whole.

(** Part of a grid with equal logarithmic steps: the energies are a grid of the same size from the lower to the upper limit, cut at the
    ends of the source's own grid, and the exposures lie on the broken line through the exposures of the source. *)
Theorem C58_part_partial : forall s emin emax, well_formed s -> log_uniform (s_en s) -> INR (length (s_en s)) <= IZR (2 ^ 64) ->
  let lo := Rmax emin (nth 0 (s_en s) 0) in let hi := Rmin emax (last (s_en s) 0) in
  lo < hi ->
  exists es xs, npred_range s emin emax = Ok (log_rule es (products (sp_val (s_spec s) (s_par s)) es xs)) /\
    length es = length (s_en s) /\ length xs = length es /\ log_uniform es /\ nth 0 es 0 = lo /\ last es 0 = hi /\
    forall k, (k < length es)%nat -> on_line (s_en s) (s_ex s) (nth k es 0) (nth k xs 0).
Proof.
  intros s emin emax W (a & h & Hh & Hen) Nm lo hi Hl. pose proof W as W0. destruct W as (N2 & P & Lx).
  assert (A1 : 1 <= INR (length (s_en s) - 1)) by (change 1 with (INR 1); apply le_INR; lia).
  assert (Dec : (emin <= nth 0 (s_en s) 0 /\ last (s_en s) 0 <= emax) \/ ~ (emin <= nth 0 (s_en s) 0 /\ last (s_en s) 0 <= emax)) by
    (destruct (Rle_dec emin (nth 0 (s_en s) 0)), (Rle_dec (last (s_en s) 0) emax); tauto).
  destruct Dec as [[C1 C2]|C].
  - exists (s_en s), (s_ex s). rewrite C58_whole by auto. rewrite npred_ok by auto. repeat split; auto.
    + exists a, h. auto.
    + unfold lo. now rewrite Rmax_right.
    + unfold hi. now rewrite Rmin_right.
    + intros k Hk. destruct (exposure_at_ok s a h Hh Hen N2 Lx Nm (a + INR k * h)) as (x & Ex & On).
      { assert (0 <= INR k <= INR (length (s_en s) - 1)) by (split; [apply pos_INR|apply le_INR; lia]). nra. }
      assert (Q : forall k, (k < length (s_en s))%nat -> nth_error (s_en s) k = Some (nth k (s_en s) 0)) by (intros; now apply nth_error_nth').
      assert (X : forall k, (k < length (s_en s))%nat -> nth_error (s_ex s) k = Some (nth k (s_ex s) 0)) by (intros; apply nth_error_nth'; lia).
      assert (Inc : forall j, (S j < length (s_en s))%nat -> nth j (s_en s) 0 <= nth (S j) (s_en s) 0) by (intros j Hj; rewrite !Hen by lia; left; apply exp_increasing; rewrite S_INR; lra).
      assert (Ln : forall j, (S j < length (s_en s))%nat -> ln (nth (S j) (s_en s) 0) - ln (nth j (s_en s) 0) <> 0) by (intros j Hj; rewrite !Hen, !ln_exp, S_INR by lia; lra).
      destruct (Nat.eq_dec k (length (s_en s) - 1)) as [E|E].
      * exists (k - 1)%nat, (nth (k - 1) (s_en s) 0), (nth k (s_en s) 0), (nth (k - 1) (s_ex s) 0), (nth k (s_ex s) 0). replace (S (k - 1)) with k by lia.
        assert (I := Inc (k - 1)%nat ltac:(lia)). assert (L := Ln (k - 1)%nat ltac:(lia)). replace (S (k - 1)) with k in I, L by lia.
        repeat split; try apply Q; try apply X; try lia; try lra. unfold line. cbn [fst snd]. field. auto.
      * exists k, (nth k (s_en s) 0), (nth (S k) (s_en s) 0), (nth k (s_ex s) 0), (nth (S k) (s_ex s) 0). assert (I := Inc k ltac:(lia)). assert (L := Ln k ltac:(lia)).
        repeat split; try apply Q; try apply X; try lia; try lra. unfold line. cbn [fst snd]. field. auto.
  - destruct (part_range s a h Hh Hen N2 Lx Nm emin emax 0 C Hl ltac:(lia)) as (es & xs & Ea & Le & Lxs & K). simpl in Le, Lxs, K. fold lo hi in K.
    assert (F0 : 0 < nth 0 (s_en s) 0) by (rewrite Hen by lia; apply exp_pos).
    assert (L0 : 0 < lo) by (eapply Rlt_le_trans; [exact F0|apply Rmax_r]).
    assert (LL : 0 < ln (hi / lo)).
    { assert (L1 : 1 < hi / lo) by (apply Rmult_lt_reg_r with lo; [lra|]; replace (hi / lo * lo) with hi by (field; lra); lra). apply ln_increasing in L1; [rewrite ln_1 in L1; exact L1|lra]. }
    assert (Lh : ln (hi / lo) = ln hi - ln lo) by (unfold Rdiv; rewrite ln_mult, ln_Rinv; [ring|lra|lra|apply Rinv_0_lt_compat; lra]).
    exists es, xs. split; [now apply npred_range_ok|]. split; [auto|]. split; [lia|]. split; [|split; [|split]].
    + exists (ln lo), (ln (hi / lo) / INR (length (s_en s) - 1)). split; [apply Rmult_lt_0_compat; [lra|apply Rinv_0_lt_compat; lra]|]. intros k Hk. apply K. lia.
    + destruct (K 0%nat ltac:(lia)) as [-> _]. simpl INR. rewrite Rmult_0_l, Rplus_0_r. now apply exp_ln.
    + rewrite last_nth, Le. destruct (K (length (s_en s) - 1)%nat ltac:(lia)) as [-> _].
      replace (ln lo + INR (length (s_en s) - 1) * (ln (hi / lo) / INR (length (s_en s) - 1))) with (ln hi) by (rewrite Lh; field; lra). apply exp_ln. lra.
    + intros k Hk. apply K. lia.
Qed.
Print Assumptions C58_part_partial.

(** The counts of a range are not negative if the spectrum and the exposures are not. *)
Theorem C58_nonneg_partial : forall s emin emax, well_formed s -> log_uniform (s_en s) -> INR (length (s_en s)) <= IZR (2 ^ 64) ->
  Rmax emin (nth 0 (s_en s) 0) < Rmin emax (last (s_en s) 0) ->
  Forall (Rle 0) (s_ex s) -> (forall e, 0 < e -> 0 <= sp_val (s_spec s) (s_par s) e) -> exists v, npred_range s emin emax = Ok v /\ 0 <= v.
Proof.
  intros s emin emax W U N H X S. destruct (C58_part_partial s emin emax W U N H) as (es & xs & E & _ & Lx & (a & h & Hh & Hen) & _ & _ & On).
  eexists. split; [exact E|]. rewrite log_rule_products. apply trapezoids_nonneg.
  - rewrite map_map. cbn [fst]. rewrite <- (map_map fst ln). rewrite combine_fst by lia. clear - Hh Hen.
    assert (G : forall l a, (forall k, (k < length l)%nat -> nth k l 0 = exp (a + INR k * h)) -> increasing (map ln l)).
    { clear - Hh. induction l as [|x l IH]; intros a H; simpl; auto. destruct l as [|y l]; simpl; auto. split.
      - assert (A := H 0%nat ltac:(simpl; lia)). assert (B := H 1%nat ltac:(simpl; lia)). simpl in A, B. rewrite A, B, !ln_exp. lra.
      - apply (IH (a + h)). intros k Hk. specialize (H (Datatypes.S k) ltac:(simpl in *; lia)). rewrite S_INR in H. cbn [nth] in H |- *. rewrite H. f_equal. ring. }
    now apply (G es a).
  - apply Forall_forall. intros p I. apply in_map_iff in I. destruct I as ([e x] & <- & I). simpl. 
    apply (In_nth _ _ (0, 0)) in I. destruct I as (k & Hk & Ek). rewrite combine_length in Hk. rewrite combine_nth in Ek by lia. injection Ek as <- <-.
    assert (0 < nth k es 0) by (rewrite Hen by lia; apply exp_pos). assert (0 <= nth k xs 0) by (eapply on_line_nonneg; [apply W|exact X|apply On; lia]).
    apply Rmult_le_pos; [lra|]. apply Rmult_le_pos; auto.
Qed.
Print Assumptions C58_nonneg_partial.

Lemma trunc_is x n : INR n <= x < INR n + 1 -> trunc_nat x = n.
Proof.
  intros H. assert (0 <= x) by (pose proof (pos_INR n); lra). destruct (trunc_spec x) as [A B]; auto.
  assert (INR (trunc_nat x) < INR (S n)) by (rewrite S_INR; lra). assert (INR n < INR (S (trunc_nat x))) by (rewrite S_INR; lra).
  apply INR_lt in H1. apply INR_lt in H2. lia.
Qed.
Lemma to_size_is x n : INR n <= x < INR n + 1 -> x < 1000 -> to_size x = Ok n.
Proof.
  intros H H1. unfold to_size. pose proof (pos_INR n). destruct (Rltb_spec (-1) x); [|lra]. destruct (Rltb_spec x (IZR (2 ^ 64))) as [|C]; [|exfalso; apply C; apply Rlt_trans with 1000; auto; apply IZR_lt; reflexivity].
  simpl. f_equal. now apply trunc_is.
Qed.
Definition grid3 (e2 : R) (xs : list R) : source := {| s_spec := const_spec "Normalization"; s_par := [1]; s_en := [exp 0; exp 1; exp e2]; s_ex := xs |}.
Lemma grid3_log : log_uniform (s_en (grid3 2 [1; 1; 1])).
Proof. exists 0, 1. split; [lra|]. intros [|[|[|k]]] Hk; simpl in *; try lia; f_equal; ring. Qed.
Lemma arrays3 e2 xs emin emax lo hi : 1 < e2 -> Rmax emin (exp 0) = lo -> Rmin emax (exp e2) = hi -> 0 < hi -> lo <> exp 0 \/ hi <> exp e2 ->
  exposure_arrays (grid3 e2 xs) emin emax 0 = exposure_loop [exp 0; exp 1; exp e2] xs (e2 / 2) ((ln hi - ln lo) / 2) (ln lo) 0 3.
Proof.
  intros H1 H2 H3 H4 H5. assert (exp 0 < exp e2) by (apply exp_increasing; lra). pose proof (exp_pos 0). assert (exp 0 <= lo) by (rewrite <- H2; apply Rmax_r).
  unfold exposure_arrays. simpl s_en. cbv iota. cbv zeta. rewrite clip_lo, clip_hi. simpl last. rewrite H2, H3.
  assert (B : Reqb lo (exp 0) && Reqb hi (exp e2) = false) by (destruct (Reqb_spec lo (exp 0)), (Reqb_spec hi (exp e2)); simpl; auto; tauto). rewrite B. simpl length. simpl Nat.eqb. cbv iota.
  destruct (Rltb_spec 0 (exp 0)); [|lra]. destruct (Rltb_spec 0 (exp e2)); [|lra]. destruct (Reqb_spec (exp 0) (exp e2)); [lra|]. destruct (Rltb_spec 0 hi); [|lra]. simpl andb. cbv iota.
  simpl s_ex. replace (INR (3 - 1)) with 2 by (simpl; ring). f_equal.
  - unfold Rdiv at 2. rewrite <- exp_Ropp, <- exp_plus, ln_exp. f_equal. ring.
  - f_equal. unfold Rdiv. rewrite ln_mult, ln_Rinv; [ring|lra|lra|apply Rinv_0_lt_compat; lra].
Qed.
Lemma exposure_at3 e2 x0 x1 x2 l k v : 1 < e2 < 100 -> INR k <= l / (e2 / 2) < INR k + 1 -> l / (e2 / 2) < 1000 ->
  match k with 0%nat => v = x0 + l / (e2 / 2) * (x1 - x0) | 2%nat => v = x2 | _ => False end ->
  exposure_at [exp 0; exp 1; exp e2] [x0; x1; x2] (e2 / 2) l = Ok v.
Proof.
  intros H1 H2 H3 H4. unfold exposure_at. simpl nth. rewrite ln_exp. rewrite Rminus_0_r. rewrite (to_size_is _ k H2 H3).
  destruct k as [|[|[|k]]]; try tauto; subst v; simpl; auto. rewrite ln_exp, Rminus_0_r. reflexivity.
Qed.
(** On another grid, which computeExposure accepts, they need not. *)
Theorem C58_grid_refuted : exists s emin emax es xs k, well_formed s /\ increasing (s_en s) /\ nth 0 (s_en s) 0 <= emin < emax /\ emax <= last (s_en s) 0 /\
  exposure_arrays s emin emax 0 = Ok (es, xs) /\ (k < length es)%nat /\ ~ on_line (s_en s) (s_ex s) (nth k es 0) (nth k xs 0).
Proof.
  assert (E01 : exp 0 < exp 1) by (apply exp_increasing; lra). assert (E13 : exp 1 < exp 3) by (apply exp_increasing; lra).
  exists (grid3 3 [0; 1; 1]), (exp 0), (exp 1), [exp (INR 0 * ((1 - 0) / 2) + 0); exp (INR 1 * ((1 - 0) / 2) + 0); exp (INR 2 * ((1 - 0) / 2) + 0)], [0; 1 / 3; 2 / 3], 2%nat.
  split; [repeat split; simpl; auto; repeat constructor; apply exp_pos|]. split; [simpl; auto|]. split; [simpl; lra|]. split; [simpl; lra|]. split; [|split; [simpl; lia|]].
  - rewrite (arrays3 3 _ _ _ (exp 0) (exp 1)); try lra; [|rewrite Rmax_left; lra|rewrite Rmin_left; lra|apply exp_pos]. rewrite !ln_exp. unfold exposure_loop. cbv zeta.
    rewrite (exposure_at3 3 0 1 1 (INR 0 * ((1 - 0) / 2) + 0) 0 0) by (simpl; lra). cbv beta iota delta [obind].
    rewrite (exposure_at3 3 0 1 1 (INR 1 * ((1 - 0) / 2) + 0) 0 (1 / 3)) by (simpl; lra). cbv beta iota delta [obind].
    rewrite (exposure_at3 3 0 1 1 (INR 2 * ((1 - 0) / 2) + 0) 0 (2 / 3)) by (simpl; lra). reflexivity.
  - intros (k & e0 & e1 & x0 & x1 & A & B & C & D & [E1 E2] & Ex). simpl nth in Ex, E1, E2. 
    replace (INR 2 * ((1 - 0) / 2) + 0) with 1 in * by (simpl; field). 
    destruct k as [|[|k]]; simpl in A, B, C, D; try (destruct k; discriminate).
    + injection A as <-. injection B as <-. injection C as <-. injection D as <-. unfold line in Ex. simpl in Ex. rewrite !ln_exp in Ex. lra.
    + injection A as <-. injection B as <-. injection C as <-. injection D as <-. unfold line in Ex. simpl in Ex. rewrite !ln_exp in Ex. lra.
Qed.
Print Assumptions C58_grid_refuted.

(** A range below the grid: the program casts a negative number to an unsigned one. *)
Theorem C58_below_refuted : exists s emin emax, well_formed s /\ log_uniform (s_en s) /\ 0 < emin < emax /\ emax < nth 0 (s_en s) 0 /\ npred_range s emin emax = UB.
Proof.
  assert (E1 : exp (-3) < exp (-2)) by (apply exp_increasing; lra). assert (E2 : exp (-2) < exp 0) by (apply exp_increasing; lra). assert (E3 : exp 0 < exp 2) by (apply exp_increasing; lra). pose proof (exp_pos (-3)).
  exists (grid3 2 [1; 1; 1]), (exp (-3)), (exp (-2)). split; [repeat split; simpl; auto; repeat constructor; apply exp_pos|]. split; [apply grid3_log|]. split; [lra|]. split; [simpl; lra|].
  unfold npred_range. rewrite (arrays3 2 _ _ _ (exp 0) (exp (-2))); try lra; [|rewrite Rmax_right; lra|rewrite Rmin_left; lra]. rewrite !ln_exp. unfold exposure_loop. cbv zeta.
  rewrite (exposure_at3 2 1 1 1 (INR 0 * ((-2 - 0) / 2) + 0) 0 1) by (simpl; lra). cbv beta iota delta [obind].
  assert (U : exposure_at [exp 0; exp 1; exp 2] [1; 1; 1] (2 / 2) (INR 1 * ((-2 - 0) / 2) + 0) = UB).
  { unfold exposure_at, to_size. simpl nth. rewrite ln_exp. destruct (Rltb_spec (-1) ((INR 1 * ((-2 - 0) / 2) + 0 - 0) / (2 / 2))) as [C|]; [simpl in C; lra|]. reflexivity. }
  rewrite U. reflexivity.
Qed.
Print Assumptions C58_below_refuted.

(** A range above the grid: the counts are negative, with a positive spectrum and positive exposures. *)
Theorem C58_above_refuted : exists s emin emax v, well_formed s /\ log_uniform (s_en s) /\ last (s_en s) 0 < emin < emax /\
  Forall (Rlt 0) (s_ex s) /\ (forall e, 0 < sp_val (s_spec s) (s_par s) e) /\ npred_range s emin emax = Ok v /\ v < 0.
Proof.
  assert (E1 : exp 2 < exp (5 / 2)) by (apply exp_increasing; lra). assert (E2 : exp (5 / 2) < exp 3) by (apply exp_increasing; lra). assert (E3 : exp 0 < exp 2) by (apply exp_increasing; lra).
  set (s := grid3 2 [1; 1; 1]). assert (W : well_formed s) by (repeat split; simpl; auto; repeat constructor; apply exp_pos).
  set (l := fun k => INR k * ((2 - 5 / 2) / 2) + 5 / 2).
  assert (Ea : exposure_arrays s (exp (5 / 2)) (exp 3) 0 = Ok ([exp (l 0%nat); exp (l 1%nat); exp (l 2%nat)], [1; 1; 1])).
  { unfold s. rewrite (arrays3 2 _ _ _ (exp (5 / 2)) (exp 2)); try lra; [|rewrite Rmax_left; lra|rewrite Rmin_right; lra|apply exp_pos]. rewrite !ln_exp. unfold exposure_loop. cbv zeta. fold (l 0%nat) (l 1%nat) (l 2%nat).
    rewrite (exposure_at3 2 1 1 1 (l 0%nat) 2 1) by (unfold l; simpl; lra). cbv beta iota delta [obind].
    rewrite (exposure_at3 2 1 1 1 (l 1%nat) 2 1) by (unfold l; simpl; lra). cbv beta iota delta [obind].
    rewrite (exposure_at3 2 1 1 1 (l 2%nat) 2 1) by (unfold l; simpl; lra). reflexivity. }
  eexists s, (exp (5 / 2)), (exp 3), _. split; [exact W|]. split; [apply grid3_log|]. split; [simpl; lra|]. split; [repeat constructor; lra|]. split; [intros; simpl; lra|].
  split; [apply npred_range_ok; [exact W|exact Ea]|]. rewrite log_rule_products. simpl. rewrite !ln_exp. unfold l. simpl INR.
  set (a := exp (0 * ((2 - 5 / 2) / 2) + 5 / 2)). set (b := exp (1 * ((2 - 5 / 2) / 2) + 5 / 2)). set (c := exp ((1 + 1) * ((2 - 5 / 2) / 2) + 5 / 2)).
  assert (0 < a) by apply exp_pos. assert (0 < b) by apply exp_pos. assert (0 < c) by apply exp_pos. lra.
Qed.
Print Assumptions C58_above_refuted.

(** The hypotheses are met: the upper half of a grid of three energies. *)
Example C58_case : let s := grid3 2 [1; 2; 3] in
  well_formed s /\ log_uniform (s_en s) /\ INR (length (s_en s)) <= IZR (2 ^ 64) /\ Rmax (exp 1) (nth 0 (s_en s) 0) < Rmin (exp 5) (last (s_en s) 0) /\ ~ exp 1 <= nth 0 (s_en s) 0.
Proof.
  assert (exp 1 < exp 2) by (apply exp_increasing; lra). assert (exp 0 < exp 1) by (apply exp_increasing; lra). assert (exp 2 < exp 5) by (apply exp_increasing; lra).
  split; [repeat split; simpl; auto; repeat constructor; apply exp_pos|]. split; [apply grid3_log|]. split; [simpl length; apply Rle_trans with 1000; [simpl; lra|apply IZR_le; discriminate]|].
  simpl. rewrite Rmax_left, Rmin_right by lra. lra.
Qed.

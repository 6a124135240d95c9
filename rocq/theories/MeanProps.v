(** C55: the parameters of the spectra mean what their names say. *)
From Coq Require Import Reals Lra.
From Coquelicot Require Import Coquelicot.
From Verif Require Import Base DerivSpec SpecFn SpecDom SpecTac SpecPowModel SpecPow SpecExpModel SpecExp SpecBrkModel SpecBrk SpecListModel SpecList SpecPPL MeanSpec.
Local Open Scope R_scope.

Lemma index_intro V t x s (f : R -> R) d : locally x (fun y => V t y = Some (f y)) -> is_derive f x d -> x * d = s * f x -> local_index V t x s.
Proof.
  intros [e L] D E. exists f, e, d. split; [apply cond_pos|]. split; [|split; [now apply is_derive_Reals|exact E]].
  intros y Hy. apply L. exact Hy.
Qed.
Lemma curv_intro V t x c (s : R -> R) : 0 < x -> (forall y, 0 < y -> local_index V t y (s y)) -> is_derive s x (c / x) -> local_curvature V t x c.
Proof.
  intros Hx H D. exists s, x. split; auto. split; [|now apply is_derive_Reals]. intros y Hy. apply H. apply Rabs_def2 in Hy. lra.
Qed.
(** A spectrum C exp(g(ln x)). *)
Lemma index_exp V t x s (C : R) (g : R -> R) : 0 < x -> locally x (fun y => V t y = Some (C * exp (g (ln y)))) -> is_derive g (ln x) s -> local_index V t x s.
Proof.
  intros Hx L D. apply (index_intro V t x s (fun y => C * exp (g (ln y))) (C * (s * / x * exp (g (ln x))))); auto.
  - assert (D1 : is_derive (fun y => g (ln y)) x (s * / x)).
    { replace (s * / x) with (scal (/ x) s) by (unfold scal; simpl; unfold mult; simpl; ring). apply (is_derive_comp g ln x s (/ x) D). apply is_derive_Reals. now apply derivable_pt_lim_ln. }
    apply is_derive_Reals. apply derivable_pt_lim_scal. replace (s * / x * exp (g (ln x))) with (exp (g (ln x)) * (s * / x)) by ring.
    apply (derivable_pt_lim_comp (fun y => g (ln y)) exp). now apply is_derive_Reals. apply derivable_pt_lim_exp.
  - field. lra.
Qed.
Ltac nearpos Hx := let v := fresh "v" in let Hv := fresh "Hv" in eapply filter_imp; [|exact (near_pos _ Hx)]; intros v Hv; simpl in Hv.

(** *** LogParabola *)
Lemma LogParabola_index norm alpha beta Eb x : 0 < Eb -> 0 < x -> local_index LogParabola_value [norm; alpha; beta; Eb] x (- alpha - 2 * beta * (ln x - ln Eb)).
Proof.
  intros HE Hx. apply (index_exp _ _ _ _ norm (fun l => - (alpha + beta * (l - ln Eb)) * (l - ln Eb))); auto.
  - nearpos Hx. rewrite LogParabola_ok by auto. rewrite ln_div by auto. reflexivity.
  - auto_derive; auto. ring.
Qed.
(** norm is the value at Eb, -alpha the exponent there, -2 beta the curvature. *)
Theorem C55_LogParabola : forall norm alpha beta Eb, 0 < Eb ->
  LogParabola_value [norm; alpha; beta; Eb] Eb = Some norm /\ local_index LogParabola_value [norm; alpha; beta; Eb] Eb (- alpha) /\
  (forall x, 0 < x -> local_curvature LogParabola_value [norm; alpha; beta; Eb] x (-2 * beta)).
Proof.
  intros norm alpha beta Eb HE. split; [|split].
  - rewrite LogParabola_ok by auto. replace (Eb / Eb) with 1 by (field; lra). rewrite ln_1, Rmult_0_r, exp_0. f_equal. ring.
  - pose proof (LogParabola_index norm alpha beta Eb Eb HE HE) as H. replace (- alpha - 2 * beta * (ln Eb - ln Eb)) with (- alpha) in H by ring. exact H.
  - intros x Hx. apply (curv_intro _ _ _ _ (fun y => - alpha - 2 * beta * (ln y - ln Eb))); auto.
    + intros y Hy. now apply LogParabola_index.
    + auto_derive; auto. field. lra.
Qed.
Print Assumptions C55_LogParabola.

(** *** ExpCutoffSEDPeak *)
(** E^2 dN/dE is largest at Epeak, where it is Fpeak. *)
Theorem C55_ExpCutoffSEDPeak : forall fpeak index epeak x, 0 < epeak -> 0 <= fpeak -> -2 <= index -> 0 < x ->
  exists v, SEDPeak_value [fpeak; index; epeak] x = Some v /\ x * x * v <= fpeak /\ (x = epeak -> x * x * v = fpeak) /\ (0 < fpeak -> -2 < index -> x * x * v = fpeak -> x = epeak).
Proof.
  intros fp ix ep x HE HF HI Hx. eexists. split; [apply SEDPeak_ok; auto|].
  assert (P : 0 < x / ep) by (apply Rdiv_lt_0_compat; auto).
  assert (E : x * x * (fp / (ep * ep) * exp (ix * ln (x / ep)) * exp ((ix + 2) * (1 - x / ep))) = fp * exp ((ix + 2) * (ln (x / ep) + 1 - x / ep))).
  { replace (fp * exp ((ix + 2) * (ln (x / ep) + 1 - x / ep))) with (fp * (exp (ln (x / ep)) * exp (ln (x / ep)) * exp (ix * ln (x / ep)) * exp ((ix + 2) * (1 - x / ep)))).
    - rewrite exp_ln by auto. field. lra.
    - rewrite <- !exp_plus. do 2 f_equal. ring. }
  rewrite E.
  assert (M : ln (x / ep) + 1 - x / ep <= 0). { pose proof (exp_ineq1_le (ln (x / ep))) as Q. rewrite exp_ln in Q by auto. lra. }
  split; [|split].
  - rewrite <- (Rmult_1_r fp) at 2. apply Rmult_le_compat_l; auto. assert (H : (ix + 2) * (ln (x / ep) + 1 - x / ep) <= 0).
    { replace 0 with ((ix + 2) * 0) by ring. apply Rmult_le_compat_l; lra. }
    replace 1 with (exp 0) at 2 by apply exp_0. destruct H as [H|H]; [left; now apply exp_increasing|right; now rewrite H].
  - intros ->. replace (ep / ep) with 1 by (field; lra). rewrite ln_1. replace ((ix + 2) * (0 + 1 - 1)) with 0 by ring. rewrite exp_0. ring.
  - intros F I H. assert (H1 : exp ((ix + 2) * (ln (x / ep) + 1 - x / ep)) = exp 0). { rewrite exp_0. apply Rmult_eq_reg_l with fp; lra. }
    apply exp_inv in H1. apply Rmult_integral in H1. destruct H1 as [H1|H1]; [lra|].
    destruct (Req_dec (ln (x / ep)) 0) as [Z|Z].
    + assert (x / ep = 1) by lra. replace x with (x / ep * ep) by (field; lra). rewrite H0. ring.
    + pose proof (exp_ineq1 _ Z) as Q. rewrite exp_ln in Q by auto. lra.
Qed.
Print Assumptions C55_ExpCutoffSEDPeak.

(** *** Power laws with a cutoff *)
(** Below the cutoff Index1 is the exponent: at energy x it is lower by Index2 (x / Cutoff)^Index2. *)
Theorem C55_PLSuperExpCutoff : forall pref i1 scale cut i2 x, 0 < scale -> 0 < cut -> 0 < x ->
  local_index PLSuper_value [pref; i1; scale; cut; i2] x (i1 - i2 * Rpower (x / cut) i2).
Proof.
  intros pref i1 scale cut i2 x HS HC Hx. apply (index_exp _ _ _ _ pref (fun l => i1 * (l - ln scale) - exp (i2 * (l - ln cut)))); auto.
  - nearpos Hx. rewrite PLSuper_ok by auto. rewrite Rmult_assoc, <- exp_plus, !ln_div by auto. do 3 f_equal.
  - auto_derive; auto. unfold Rpower. rewrite ln_div by auto. unfold Rminus. ring.
Qed.
Print Assumptions C55_PLSuperExpCutoff.
(** Prefactor is the value at Scale and IndexS the exponent there. *)
Theorem C55_PLSuperExpCutoff3 : forall pref iS scale ef i2, 0 < scale ->
  PLSuper3_value [pref; iS; scale; ef; i2] scale = Some pref /\ local_index PLSuper3_value [pref; iS; scale; ef; i2] scale iS.
Proof.
  intros pref iS scale ef i2 HS. assert (M : 0 < max_exp). { unfold max_exp. rewrite <- ln_1. apply ln_increasing; [lra|]. apply Rlt_pow_R1; [lra|lia]. }
  assert (Z : (iS + ef * i2) * ln (scale / scale) + ef * (1 - exp (i2 * ln (scale / scale))) = 0).
  { replace (scale / scale) with 1 by (field; lra). rewrite ln_1, !Rmult_0_r, exp_0. ring. }
  split.
  - rewrite PLSuper3_ok' by (auto; lra). rewrite Z, exp_0. f_equal. ring.
  - apply (index_exp _ _ _ _ pref (fun l => (iS + ef * i2) * (l - ln scale) + ef * (1 - exp (i2 * (l - ln scale))))); auto.
    + assert (N : locally scale (fun y => (iS + ef * i2) * ln (y / scale) + ef * (1 - exp (i2 * ln (y / scale))) < max_exp)).
      { apply (near_lt (fun y => (iS + ef * i2) * ln (y / scale) + ef * (1 - exp (i2 * ln (y / scale)))) (fun _ => max_exp)); try (auto_derive; repeat split; auto; apply Rmult_lt_0_compat; auto; now apply Rinv_0_lt_compat). rewrite Z. exact M. }
      eapply filter_imp; [|exact (near_and _ _ _ (near_pos _ HS) N)]. intros y (Hy & Hm). rewrite PLSuper3_ok' by auto. now rewrite ln_div.
    + auto_derive; auto. replace (i2 * (ln scale + - ln scale)) with 0 by ring. rewrite exp_0. ring.
Qed.
Print Assumptions C55_PLSuperExpCutoff3.
Lemma PLSuper4_near pref iS scale ef i2 x : 0 < scale -> 0 < x -> Rabs (i2 * (ln x - ln scale)) < 1 / 100 ->
  PLSuper4_value [pref; iS; scale; ef; i2] x = Some (pref * exp ((ln x - ln scale) * (iS - ef * (ln x - ln scale) / 2 * (1 + i2 * (ln x - ln scale) / 3 * (1 + i2 * (ln x - ln scale) / 4))))).
Proof. intros HS Hx H. unfold PLSuper4_value. op. rewrite ln_div by auto. unfold Rltd. destruct (Rlt_dec (Rabs (i2 * (ln x - ln scale))) (1 / 100)); [reflexivity|contradiction]. Qed.
Lemma near_abs (g : R -> R) v0 c : ex_derive g v0 -> Rabs (g v0) < c -> locally v0 (fun v => Rabs (g v) < c).
Proof.
  intros D H. apply Rabs_def2 in H. assert (A : locally v0 (fun v => g v < c)) by (apply (near_lt g (fun _ => c)); auto; [apply ex_derive_const|tauto]).
  assert (B : locally v0 (fun v => - c < g v)) by (apply (near_lt (fun _ => - c) g); auto; [apply ex_derive_const|tauto]).
  eapply filter_imp; [|exact (near_and _ _ _ A B)]. intros v (H1 & H2). now apply Rabs_def1.
Qed.
Lemma PLSuper4_index pref iS scale ef i2 x : 0 < scale -> 0 < x -> Rabs (i2 * (ln x - ln scale)) < 1 / 100 ->
  local_index PLSuper4_value [pref; iS; scale; ef; i2] x
   (iS - ef * (ln x - ln scale) * (1 + i2 * (ln x - ln scale) / 2 * (1 + i2 * (ln x - ln scale) / 3))).
Proof.
  intros HS Hx H. apply (index_exp _ _ _ _ pref (fun l => (l - ln scale) * (iS - ef * (l - ln scale) / 2 * (1 + i2 * (l - ln scale) / 3 * (1 + i2 * (l - ln scale) / 4))))); auto.
  - assert (N : locally x (fun y => Rabs (i2 * (ln y - ln scale)) < 1 / 100)) by (apply (near_abs (fun y => i2 * (ln y - ln scale))); auto; auto_derive; auto).
    eapply filter_imp; [|exact (near_and _ _ _ (near_pos _ Hx) N)]. intros y (Hy & Hm). now rewrite PLSuper4_near.
  - auto_derive; auto. field.
Qed.
(** The same for PLSuperExpCutoff4, where ExpfactorS is minus the curvature at Scale, whatever Index2. *)
Theorem C55_PLSuperExpCutoff4 : forall pref iS scale ef i2, 0 < scale ->
  PLSuper4_value [pref; iS; scale; ef; i2] scale = Some pref /\ local_index PLSuper4_value [pref; iS; scale; ef; i2] scale iS /\
  local_curvature PLSuper4_value [pref; iS; scale; ef; i2] scale (- ef).
Proof.
  intros pref iS scale ef i2 HS. assert (A : Rabs (i2 * (ln scale - ln scale)) < 1 / 100) by (replace (i2 * (ln scale - ln scale)) with 0 by ring; rewrite Rabs_R0; lra).
  split; [|split].
  - rewrite PLSuper4_near by auto. replace (ln scale - ln scale) with 0 by ring. rewrite Rmult_0_l, exp_0. f_equal. ring.
  - pose proof (PLSuper4_index pref iS scale ef i2 scale HS HS A) as H. replace (iS - ef * (ln scale - ln scale) * _) with iS in H by ring. exact H.
  - assert (N : locally scale (fun y => Rabs (i2 * (ln y - ln scale)) < 1 / 100)) by (apply (near_abs (fun y => i2 * (ln y - ln scale))); auto; auto_derive; auto).
    destruct (near_and _ _ _ (near_pos _ HS) N) as [e L].
    exists (fun y => iS - ef * (ln y - ln scale) * (1 + i2 * (ln y - ln scale) / 2 * (1 + i2 * (ln y - ln scale) / 3))), e.
    split; [apply cond_pos|]. split.
    + intros y Hy. destruct (L y Hy) as (Hy' & Hm). now apply PLSuper4_index.
    + apply is_derive_Reals. auto_derive; auto. field. lra.
Qed.
Print Assumptions C55_PLSuperExpCutoff4.

(** *** SmoothBrokenPowerLaw *)
(** The exponent is a mean of Index1 and Index2: of equal weights at the break, ... *)
Definition smooth_weight (i1 i2 brk beta x : R) : R := / (1 + exp (- ((i1 - i2) / beta * (ln x - ln brk)))).
Lemma Smooth_index pref i1 scale i2 brk beta x : 0 < scale -> 0 < brk -> beta <> 0 -> 0 < x ->
  local_index Smooth_value [pref; i1; scale; i2; brk; beta] x (i1 + (i2 - i1) * smooth_weight i1 i2 brk beta x).
Proof.
  intros HS HB Hb Hx. apply (index_exp _ _ _ _ pref (fun l => i1 * (l - ln scale) - beta * ln (1 + exp ((i1 - i2) / beta * (l - ln brk))))); auto.
  - nearpos Hx. rewrite Smooth_ok by auto. rewrite Rmult_assoc, <- exp_plus, !ln_div by auto. do 3 f_equal. ring.
  - pose proof (exp_pos ((i1 - i2) / beta * (ln x - ln brk))) as P. auto_derive; auto.
    match goal with |- 0 < 1 + exp ?a => pose proof (exp_pos a) as P'; lra end.
    unfold smooth_weight. rewrite exp_Ropp. unfold Rminus, Rdiv in *. field. split; [|split]; auto; lra.
Qed.
Theorem C55_SmoothBrokenPowerLaw : forall pref i1 scale i2 brk beta, 0 < scale -> 0 < brk -> beta <> 0 ->
  (forall x, 0 < x -> exists w, 0 < w < 1 /\ local_index Smooth_value [pref; i1; scale; i2; brk; beta] x ((1 - w) * i1 + w * i2)) /\
  local_index Smooth_value [pref; i1; scale; i2; brk; beta] brk ((i1 + i2) / 2).
Proof.
  intros pref i1 scale i2 brk beta HS HB Hb. split.
  - intros x Hx. exists (smooth_weight i1 i2 brk beta x). split.
    + unfold smooth_weight. pose proof (exp_pos (- ((i1 - i2) / beta * (ln x - ln brk)))). split; [apply Rinv_0_lt_compat; lra|]. rewrite <- Rinv_1. apply Rinv_lt_contravar; lra.
    + pose proof (Smooth_index pref i1 scale i2 brk beta x HS HB Hb Hx) as H. replace (_ + _) with (i1 + (i2 - i1) * smooth_weight i1 i2 brk beta x) by ring. exact H.
  - pose proof (Smooth_index pref i1 scale i2 brk beta brk HS HB Hb HB) as H. unfold smooth_weight in H.
    replace (- ((i1 - i2) / beta * (ln brk - ln brk))) with 0 in H by ring. rewrite exp_0 in H. replace ((i1 + i2) / 2) with (i1 + (i2 - i1) * / (1 + 1)) by field. exact H.
Qed.
Print Assumptions C55_SmoothBrokenPowerLaw.
(** ... and of Index1 far below and Index2 far above it, if beta has the sign of Index1 - Index2 ... *)
Lemma weight_low i1 i2 brk beta eps : 0 < brk -> 0 < (i1 - i2) / beta -> 0 < eps -> exists x0, 0 < x0 /\ forall x, 0 < x < x0 -> 0 < smooth_weight i1 i2 brk beta x < eps.
Proof.
  intros HB HK He. set (k := (i1 - i2) / beta) in *. exists (brk * exp (ln eps / k)). split; [apply Rmult_lt_0_compat; auto; apply exp_pos|].
  intros x (Hx & L). unfold smooth_weight. fold k. pose proof (exp_pos (- (k * (ln x - ln brk)))) as P. split; [apply Rinv_0_lt_compat; lra|].
  assert (H : ln x < ln brk + ln eps / k). { replace (ln brk + ln eps / k) with (ln (brk * exp (ln eps / k))) by (rewrite ln_mult, ln_exp; auto; apply exp_pos). now apply ln_increasing. }
  assert (H1 : - ln eps < - (k * (ln x - ln brk))).
  { assert (k * (ln x - ln brk) < k * (ln eps / k)) by (apply Rmult_lt_compat_l; lra). replace (k * (ln eps / k)) with (ln eps) in H0 by (field; lra). lra. }
  apply exp_increasing in H1. rewrite exp_Ropp, exp_ln in H1 by auto.
  rewrite <- (Rinv_inv eps). apply Rinv_lt_contravar; [|lra]. apply Rmult_lt_0_compat; [now apply Rinv_0_lt_compat|lra].
Qed.
Lemma weight_high i1 i2 brk beta eps : 0 < brk -> 0 < (i1 - i2) / beta -> 0 < eps -> exists x0, 0 < x0 /\ forall x, x0 < x -> 1 - eps < smooth_weight i1 i2 brk beta x < 1.
Proof.
  intros HB HK He. set (k := (i1 - i2) / beta) in *. exists (brk * exp (- ln eps / k)). split; [apply Rmult_lt_0_compat; auto; apply exp_pos|].
  intros x L. unfold smooth_weight. fold k. pose proof (exp_pos (- (k * (ln x - ln brk)))) as P.
  assert (Q : 0 < brk * exp (- ln eps / k)) by (apply Rmult_lt_0_compat; auto; apply exp_pos).
  assert (H : ln brk + - ln eps / k < ln x). { replace (ln brk + - ln eps / k) with (ln (brk * exp (- ln eps / k))) by (rewrite ln_mult, ln_exp; auto; apply exp_pos). apply ln_increasing; lra. }
  assert (H1 : - (k * (ln x - ln brk)) < ln eps).
  { assert (k * (- ln eps / k) < k * (ln x - ln brk)) by (apply Rmult_lt_compat_l; lra). replace (k * (- ln eps / k)) with (- ln eps) in H0 by (field; lra). lra. }
  apply exp_increasing in H1. rewrite exp_ln in H1 by auto. set (z := exp (- (k * (ln x - ln brk)))) in *. split.
  - apply Rmult_lt_reg_r with (1 + z); [lra|]. rewrite Rinv_l by lra. assert (0 < eps * z) by (now apply Rmult_lt_0_compat). lra.
  - rewrite <- Rinv_1. apply Rinv_lt_contravar; lra.
Qed.
Lemma scaled_small a w eps : 0 < eps -> 0 < w < eps / (Rabs a + 1) -> Rabs (a * w) < eps.
Proof.
  intros He (W1 & W2). rewrite Rabs_mult, (Rabs_pos_eq w) by lra. pose proof (Rabs_pos a).
  apply Rle_lt_trans with ((Rabs a + 1) * w). apply Rmult_le_compat_r; lra.
  apply Rlt_le_trans with ((Rabs a + 1) * (eps / (Rabs a + 1))). apply Rmult_lt_compat_l; lra. right. field. lra.
Qed.
Lemma eps_small a eps : 0 < eps -> 0 < eps / (Rabs a + 1).
Proof. intros H. pose proof (Rabs_pos a). apply Rdiv_lt_0_compat; lra. Qed.
Theorem C55_SmoothBrokenPowerLaw_limits_partial : forall pref i1 scale i2 brk beta, 0 < scale -> 0 < brk -> 0 < (i1 - i2) / beta ->
  index_at_low_energies Smooth_value [pref; i1; scale; i2; brk; beta] i1 /\ index_at_high_energies Smooth_value [pref; i1; scale; i2; brk; beta] i2.
Proof.
  intros pref i1 scale i2 brk beta HS HB HK. assert (Hb : beta <> 0) by (intros ->; unfold Rdiv in HK; rewrite Rinv_0, Rmult_0_r in HK; lra). split.
  - intros eps He. destruct (weight_low i1 i2 brk beta (eps / (Rabs (i2 - i1) + 1)) HB HK (eps_small _ _ He)) as (x0 & P & W). exists x0. split; auto.
    intros x Hx. eexists. split; [apply Smooth_index; auto; lra|]. replace (i1 + (i2 - i1) * smooth_weight i1 i2 brk beta x - i1) with ((i2 - i1) * smooth_weight i1 i2 brk beta x) by ring.
    apply scaled_small; auto.
  - intros eps He. destruct (weight_high i1 i2 brk beta (eps / (Rabs (i1 - i2) + 1)) HB HK (eps_small _ _ He)) as (x0 & P & W). exists x0.
    intros x Hx. eexists. split; [apply Smooth_index; auto; lra|]. replace (i1 + (i2 - i1) * smooth_weight i1 i2 brk beta x - i2) with ((i1 - i2) * (1 - smooth_weight i1 i2 brk beta x)) by ring.
    apply scaled_small; auto. specialize (W x Hx). lra.
Qed.
Print Assumptions C55_SmoothBrokenPowerLaw_limits_partial.
(** ... but the other way round if it has not: for a positive beta and a spectrum that gets harder, Index2 is the exponent
    below the break and Index1 the one above. *)
Lemma weight_swap i1 i2 brk beta x : smooth_weight i1 i2 brk beta x = 1 - smooth_weight i2 i1 brk beta x.
Proof.
  unfold smooth_weight. replace (- ((i2 - i1) / beta * (ln x - ln brk))) with (- - ((i1 - i2) / beta * (ln x - ln brk))) by (unfold Rdiv; ring).
  set (z := - ((i1 - i2) / beta * (ln x - ln brk))). rewrite (exp_Ropp z). pose proof (exp_pos z). field. lra.
Qed.
Theorem C55_SmoothBrokenPowerLaw_limits_refuted : forall pref i1 scale i2 brk beta, 0 < scale -> 0 < brk -> 0 < beta -> i1 < i2 ->
  index_at_low_energies Smooth_value [pref; i1; scale; i2; brk; beta] i2 /\ index_at_high_energies Smooth_value [pref; i1; scale; i2; brk; beta] i1.
Proof.
  intros pref i1 scale i2 brk beta HS HB Hb HI. assert (HK : 0 < (i2 - i1) / beta) by (apply Rdiv_lt_0_compat; lra). assert (Hb' : beta <> 0) by lra. split.
  - intros eps He. destruct (weight_low i2 i1 brk beta (eps / (Rabs (i1 - i2) + 1)) HB HK (eps_small _ _ He)) as (x0 & P & W). exists x0. split; auto.
    intros x Hx. eexists. split; [apply Smooth_index; auto; lra|]. rewrite weight_swap. replace (i1 + (i2 - i1) * (1 - smooth_weight i2 i1 brk beta x) - i2) with ((i1 - i2) * smooth_weight i2 i1 brk beta x) by ring.
    apply scaled_small; auto.
  - intros eps He. destruct (weight_high i2 i1 brk beta (eps / (Rabs (i2 - i1) + 1)) HB HK (eps_small _ _ He)) as (x0 & P & W). exists x0.
    intros x Hx. eexists. split; [apply Smooth_index; auto; lra|]. rewrite weight_swap. replace (i1 + (i2 - i1) * (1 - smooth_weight i2 i1 brk beta x) - i1) with ((i2 - i1) * (1 - smooth_weight i2 i1 brk beta x)) by ring.
    apply scaled_small; auto. specialize (W x Hx). lra.
Qed.
Print Assumptions C55_SmoothBrokenPowerLaw_limits_refuted.

(** *** MultipleBrokenPowerLaw *)
(** Normalization is the value at the first break, and the k-th index the exponent between the breaks k-1 and k. *)
Theorem C55_MultipleBrokenPowerLaw : forall normalization photonIndexes breakEnergies p0, MBPL_addParams normalization photonIndexes breakEnergies = Ok p0 ->
  breakEnergies <> [] -> Forall (Rlt 0) breakEnergies -> forall t, length t = length p0 ->
  MBPL_value breakEnergies t (nth 0 breakEnergies 0) = Some (nth 0 t 0) /\
  forall x k, 0 < x -> (k <= length breakEnergies)%nat -> (forall j, (j < k)%nat -> nth j breakEnergies 0 < x) ->
    (forall j, (k <= j)%nat -> (j < length breakEnergies)%nat -> x < nth j breakEnergies 0) -> local_index (MBPL_value breakEnergies) t x (nth (1 + k) t 0).
Proof.
  intros N ix br p0 H NE P t Lt. unfold MBPL_addParams in H. destruct (Nat.eqb_spec (length ix) (length br + 1)) as [L|]; [|discriminate]. simpl in H.
  destruct (increasing br) eqn:I; [|discriminate]. injection H as <-. simpl in Lt. rewrite app_length in Lt.
  assert (NE' : (0 < length br)%nat) by (destruct br; [congruence|simpl; lia]).
  assert (POS : forall j, (j < length br)%nat -> 0 < nth j br 0) by (intros j Hj; rewrite Forall_forall in P; apply P; now apply nth_In).
  pose proof (POS _ NE') as P0. split.
  - rewrite (MBPL_ok br) by (auto; lia). replace (upper_bound br (nth 0 br 0)) with 1%nat.
    + unfold mexp. simpl. replace (nth 0 br 0 / nth 0 br 0) with 1 by (field; lra). rewrite ln_1. replace (0 - 0 + nth 2 t 0 * 0) with 0 by ring. rewrite exp_0. f_equal. ring.
    + symmetry. apply ub_uniq; auto. intros j Hj. replace j with 0%nat by lia. lra. intros j Hj. apply inc_lt; auto; lia.
  - intros x k Hx Hk HL HH.
    assert (U : upper_bound br x = k). { apply ub_uniq; auto. intros j Hj. left. auto. intros j Hj. apply HH; lia. }
    apply (index_exp _ _ _ _ (nth 0 t 0) (fun l => sum1 br 1 t 1 (k - 1) - sum1 br 2 t 1 (k - 1) + nth (k + 1) t 0 * (l - ln (nth 0 br 0)))); auto.
    + eapply filter_imp; [|exact (near_and _ _ _ (near_pos _ Hx) (ub_near br x I))]. intros y (Hy & Hu).
      assert (Uy : upper_bound br y = k).
      { destruct Hu as [Hu|(k' & E1 & E2 & E3)]; [congruence|]. exfalso. rewrite U in E1. specialize (HL k' ltac:(lia)). lra. }
      rewrite (MBPL_ok br) by (auto; lia). rewrite Uy. unfold mexp. rewrite ln_div by auto. reflexivity.
    + replace (1 + k)%nat with (k + 1)%nat by lia. auto_derive; auto. ring.
Qed.
Print Assumptions C55_MultipleBrokenPowerLaw.

(** *** PiecewisePowerLaw *)
(** The spectrum goes through the given points (relative to the first flux unless the fluxes are decoupled), and IndexL and IndexH
    are the exponents below the first and above the last. *)
Theorem C55_PiecewisePowerLaw : forall dec indexL indexH dNdEs energies p0, PPL_addParams indexL indexH dNdEs energies = Ok p0 ->
  energies <> [] -> Forall (Rlt 0) energies -> forall t, length t = length p0 ->
  (forall k, (k < length energies)%nat -> dec = true \/ (0 < k)%nat -> 0 < nth (2 + k) t 0) ->
  (forall k, (k < length energies)%nat -> PPL_value dec energies t (nth k energies 0) = Some (if dec then nth (2 + k) t 0 else match k with O => nth 2 t 0 | _ => nth 2 t 0 * nth (2 + k) t 0 end)) /\
  (forall x, 0 < x < nth 0 energies 0 -> local_index (PPL_value dec energies) t x (nth 0 t 0)) /\
  (forall x, nth (length energies - 1) energies 0 < x -> local_index (PPL_value dec energies) t x (nth 1 t 0)).
Proof.
  intros dec iL iH ds en p0 H N P t Lt A. unfold PPL_addParams in H. destruct (Nat.eqb_spec (length ds) (length en)) as [L|]; [|discriminate]. simpl in H.
  destruct (increasing en) eqn:I; [|discriminate]. injection H as <-. simpl in Lt. rewrite app_length in Lt.
  assert (NE' : (0 < length en)%nat) by (destruct en; [congruence|simpl; lia]).
  assert (POS : forall j, (j < length en)%nat -> 0 < nth j en 0) by (intros j Hj; rewrite Forall_forall in P; apply P; now apply nth_In).
  assert (AP : allpos dec en t). { intros k Hk. unfold Dk. destruct dec; [auto|]. destruct k; [lra|]. apply A; auto. right. lia. }
  assert (Lt' : (length en + 2 <= length t)%nat) by lia.
  split; [|split].
  - intros k Hk. assert (V : PPL_value dec en t (nth k en 0) = Some (Cc dec t * Dk dec t k)).
    { destruct (Nat.eq_dec k 0) as [->|K0].
      - rewrite (value_low dec en) by (auto; right; reflexivity). f_equal. replace (nth 0 en 0 / nth 0 en 0) with 1 by (field; specialize (POS 0%nat NE'); lra). rewrite ln_1, Rmult_0_r, exp_0. ring.
      - assert (E0 : nth 0 en 0 < nth k en 0) by (apply inc_lt; auto; lia).
        destruct (Nat.eq_dec k (length en - 1)) as [K|K].
        + rewrite (value_high dec en) by (auto; rewrite <- K; right; reflexivity). rewrite <- K. f_equal. replace (nth k en 0 / nth k en 0) with 1 by (field; specialize (POS k Hk); lra). rewrite ln_1, Rmult_0_r, exp_0. ring.
        + assert (K1 : (k + 1 < length en)%nat) by lia. assert (E1 : nth k en 0 < nth (k + 1) en 0) by (apply inc_lt; auto; lia).
          rewrite (value_mid dec en) with (j := k); auto; try (apply AP; lia); [|right; reflexivity].
          destruct (mid_node dec en NE' I POS t k K1 AP) as (M & _). f_equal. exact M. }
    rewrite V. f_equal. unfold Cc, Dk. destruct dec; [ring|]. destruct k; ring.
  - intros x (Hx & H0). pose proof (POS 0%nat NE') as P0'. apply (index_exp _ _ _ _ (Cc dec t * Dk dec t 0) (fun l => nth 0 t 0 * (l - ln (nth 0 en 0)))); auto.
    + assert (Ne : locally x (fun y => y < nth 0 en 0)) by (apply (near_lt (fun y => y) (fun _ => nth 0 en 0)); auto; [apply ex_derive_id|apply ex_derive_const]).
      eapply filter_imp; [|exact (near_and _ _ _ (near_pos _ Hx) Ne)]. intros y (Hy & Hl). rewrite (value_low dec en NE' POS); auto; [|lra].
      rewrite ln_div by auto. reflexivity.
    + auto_derive; auto. ring.
  - intros x Hx. pose proof (POS (length en - 1)%nat ltac:(lia)) as Pl. assert (E0 : nth 0 en 0 <= nth (length en - 1) en 0).
    { destruct (Nat.eq_dec (length en - 1) 0) as [->|]; [lra|]. left. apply inc_lt; auto; lia. }
    apply (index_exp _ _ _ _ (Cc dec t * Dk dec t (length en - 1)) (fun l => nth 1 t 0 * (l - ln (nth (length en - 1) en 0)))); [lra| |].
    + assert (Ne : locally x (fun y => nth (length en - 1) en 0 < y)) by (apply (near_lt (fun _ => nth (length en - 1) en 0) (fun y => y)); auto; [apply ex_derive_const|apply ex_derive_id]).
      eapply filter_imp; [|exact Ne]. intros y Hl. simpl in Hl. rewrite (value_high dec en NE' POS); auto; try lra.
      rewrite ln_div by lra. reflexivity.
    + auto_derive; auto. ring.
Qed.
Print Assumptions C55_PiecewisePowerLaw.

Example C55_case : MBPL_addParams 1 [-1; -2; -3] [2; 5] = Ok [1; -1; -2; -3; 2; 5] /\ PPL_addParams (-1) (-2) [1; 2] [1; 5] = Ok [-1; -2; 1; 2; 1; 5] /\
  0 < (-2 - -3) / (1 / 5) /\ 0 <= 1 /\ -2 <= -3 / 2.
Proof.
  unfold MBPL_addParams, PPL_addParams. simpl. unfold Rltd. repeat split; try lra.
  - destruct (Rlt_dec 2 5); [reflexivity|lra].
  - destruct (Rlt_dec 1 5); [reflexivity|lra].
Qed.

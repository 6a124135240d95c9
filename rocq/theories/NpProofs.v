From Coq Require Import Reals String List Bool PeanoNat Lra Lia.
From Verif Require Import Base DerivSpec AccumModel AccumProofs TrapModel TrapSpec TrapProofs NpModel NpSpec.
From Verif Require SmapGrad UnbinGrad.
Import ListNotations.
Local Open Scope R_scope.
Local Open Scope list_scope.

(** * Integrands *)
Lemma integrand_ok f get F X : forall es k, (forall e, In e es -> f e = Ok (F e)) -> (forall j, (j < length es)%nat -> get (k + j)%nat = Ok (X (k + j)%nat)) ->
  integrand f get es k = Ok (map (fun j => F (nth j es 0) * X (k + j)%nat) (seq 0 (length es))).
Proof.
  induction es as [|e es IH]; intros k Hf Hg; simpl; auto.
  rewrite (Hf e) by (left; auto). simpl. assert (G := Hg 0%nat ltac:(simpl; lia)). rewrite Nat.add_0_r in G. rewrite G. simpl.
  rewrite IH; [|intros; apply Hf; right; auto|].
  - simpl. rewrite Nat.add_0_r. do 2 f_equal. rewrite <- seq_shift, map_map. apply map_ext. intros j. now replace (k + S j)%nat with (S k + j)%nat by lia.
  - intros j Hj. replace (S k + j)%nat with (k + S j)%nat by lia. apply Hg. simpl. lia.
Qed.
Lemma products_seq F : forall es xs, (length es <= length xs)%nat -> map (fun j => F (nth j es 0) * nth j xs 0) (seq 0 (length es)) = products F es xs.
Proof.
  unfold products. induction es as [|e es IH]; intros [|x xs] L; simpl in *; auto; try lia. f_equal. rewrite <- seq_shift, map_map. rewrite <- IH by lia. now apply map_ext.
Qed.
Lemma integrand_products f get F xs es : (forall e, In e es -> f e = Ok (F e)) -> (length es <= length xs)%nat ->
  (forall j, (j < length xs)%nat -> get j = Ok (nth j xs 0)) -> integrand f get es 0 = Ok (products F es xs).
Proof.
  intros Hf L Hg. rewrite (integrand_ok f get F (fun j => nth j xs 0)); auto; [|intros; apply Hg; lia].
  f_equal. simpl. now apply products_seq.
Qed.
Lemma vec_get_nth (l : list R) j : (j < length l)%nat -> vec_get l j = Ok (nth j l 0).
Proof. intros H. unfold vec_get. rewrite (nth_error_nth' l 0 H). reflexivity. Qed.
Lemma vec_at_nth (l : list R) j : (j < length l)%nat -> vec_at l j = Ok (nth j l 0).
Proof. intros H. unfold vec_at. rewrite (nth_error_nth' l 0 H). reflexivity. Qed.
Lemma products_length F es xs : (length es <= length xs)%nat -> length (products F es xs) = length es.
Proof. intros. unfold products. rewrite map_length, combine_length. lia. Qed.
Lemma log_integral_rule es ys : length ys = length es -> (2 <= length es)%nat -> Forall (Rlt 0) es -> compute_log_integral es ys = Ok (log_rule es ys).
Proof. intros. unfold log_rule. apply log_trapezoids; auto; lia. Qed.
Lemma products_ext F G es xs : (forall e, In e es -> F e = G e) -> products F es xs = products G es xs.
Proof. intros H. unfold products. apply map_ext_in. intros [e x] I. simpl. f_equal. apply H. eapply in_combine_l; eauto. Qed.

(** * Derivatives of the rule *)
Lemma derive_plus f g x a b : derivable_pt_lim f x a -> derivable_pt_lim g x b -> derivable_pt_lim (fun v => f v + g v) x (a + b).
Proof. apply derivable_pt_lim_plus. Qed.
Lemma derive_eq f x a b : derivable_pt_lim f x a -> a = b -> derivable_pt_lim f x b.
Proof. intros H <-. exact H. Qed.
Lemma derive_same f g x a : derivable_pt_lim f x a -> (forall v, f v = g v) -> derivable_pt_lim g x a.
Proof. intros H E. apply UnbinGrad.derive_loc with (f := f) (delta := 1); auto. lra. Qed.
Lemma derive_trap {A} (x : A -> R) (y : A -> R -> R) (dy : A -> R) v0 : forall l, (forall a, In a l -> derivable_pt_lim (y a) v0 (dy a)) ->
  derivable_pt_lim (fun v => trapezoids (map (fun a => (x a, y a v)) l)) v0 (trapezoids (map (fun a => (x a, dy a)) l)).
Proof.
  induction l as [|a l IH]; intros H; [apply derivable_pt_lim_const|]. destruct l as [|b l]; [apply derivable_pt_lim_const|].
  assert (Ha := H a (or_introl eq_refl)). assert (Hb := H b (or_intror (or_introl eq_refl))).
  specialize (IH (fun c I => H c (or_intror I))).
  change (derivable_pt_lim (fun v => (y a v + y b v) / 2 * (x b - x a) + trapezoids (map (fun a => (x a, y a v)) (b :: l))) v0
    ((dy a + dy b) / 2 * (x b - x a) + trapezoids (map (fun a => (x a, dy a)) (b :: l)))).
  apply derive_plus; auto. apply derive_eq with ((x b - x a) / 2 * (dy a + dy b)); [|field].
  apply derive_same with (fun v => (x b - x a) / 2 * (y a v + y b v)); [|intros; field]. apply SmapGrad.derive_scal, derive_plus; auto.
Qed.
Lemma log_rule_products F es xs : log_rule es (products F es xs) = trapezoids (map (fun ex => (ln (fst ex), fst ex * (F (fst ex) * snd ex))) (combine es xs)).
Proof.
  unfold log_rule, products. f_equal. revert xs. induction es as [|e es IH]; intros [|x xs]; simpl; auto. f_equal. auto.
Qed.
Lemma derive_log_rule F D es xs v0 : (forall e, In e es -> derivable_pt_lim (fun v => F v e) v0 (D e)) ->
  derivable_pt_lim (fun v => log_rule es (products (F v) es xs)) v0 (log_rule es (products D es xs)).
Proof.
  intros H. rewrite log_rule_products. apply derive_same with (fun v => trapezoids (map (fun ex => (ln (fst ex), fst ex * (F v (fst ex) * snd ex))) (combine es xs))); [|intros; now rewrite log_rule_products].
  apply (derive_trap (fun ex => ln (fst ex)) (fun ex v => fst ex * (F v (fst ex) * snd ex)) (fun ex => fst ex * (D (fst ex) * snd ex))). intros [e x] I. simpl.
  apply SmapGrad.derive_scal. apply derive_eq with (x * D e); [|ring]. apply derive_same with (fun v => x * F v e); [|intros; ring].
  apply SmapGrad.derive_scal. apply H. eapply in_combine_l; eauto.
Qed.
Lemma log_rule_scal c F es xs : log_rule es (products (fun e => c * F e) es xs) = c * log_rule es (products F es xs).
Proof.
  rewrite !log_rule_products. induction (combine es xs) as [|a l IH]; [simpl; ring|]. destruct l as [|b l]; [simpl; ring|].
  rewrite !map_cons in *. cbn [trapezoids fst snd] in *. rewrite IH. field.
Qed.

(** * The source *)
Section Src.
Variable s : source.
Notation S e := (sp_val (s_spec s) (s_par s) e).
Lemma npred_ok : well_formed s -> npred s = Ok (log_rule (s_en s) (products (fun e => S e) (s_en s) (s_ex s))).
Proof.
  intros (N & P & L). unfold npred. rewrite (integrand_products _ _ (fun e => S e) (s_ex s)); [simpl|auto|lia|apply vec_get_nth].
  apply log_integral_rule; auto. apply products_length. lia.
Qed.
(** a derivative of something linear in the spectrum, with the shortcut for the prefactor *)
Lemma prefactor_derive (f : source -> outcome R) (L : (R -> R) -> R) (dv : outcome R) name i es :
  (forall p, f (with_par s p) = Ok (L (fun e => sp_val (s_spec s) p e))) -> f s = Ok (L (fun e => S e)) -> 
  (forall F G, (forall e, In e es -> F e = G e) -> L F = L G) -> (forall c F, L (fun e => c * F e) = c * L F) ->
  (forall F D v0, (forall e, In e es -> derivable_pt_lim (fun v => F v e) v0 (D e)) -> derivable_pt_lim (fun v => L (F v)) v0 (L D)) ->
  dv = Ok (L (sp_der (s_spec s) (s_par s) i)) ->
  true_derivative s name i es -> (name = "Prefactor"%string -> proportional s i es) ->
  exists d, by_prefactor s name (f s) dv = Ok d /\ partial_at (of_par s f) (s_par s) i d.
Proof.
  intros Hf Hs Le Lc Ld Hd (Hn & v0 & Hv & D) Hp.
  assert (K : forall d, derivable_pt_lim (fun v => L (fun e => sp_val (s_spec s) (upd (s_par s) i v) e)) v0 d -> partial_at (of_par s f) (s_par s) i d).
  { intros d Hd'. exists v0, 1, (fun v => L (fun e => sp_val (s_spec s) (upd (s_par s) i v) e)). split; [exact Hv|]. split; [lra|]. split; [|exact Hd']. intros v _. unfold of_par. rewrite Hf. reflexivity. }
  assert (D0 : exists d, dv = Ok d /\ partial_at (of_par s f) (s_par s) i d).
  { exists (L (sp_der (s_spec s) (s_par s) i)). split; [exact Hd|]. apply K, Ld. exact D. }
  unfold by_prefactor. destruct (String.eqb_spec name "Prefactor") as [E|E]; auto.
  unfold param_value. rewrite Hn. unfold vec_at. rewrite Hv. simpl. destruct (Reqb_spec v0 0) as [Z|NZ]; auto.
  destruct (Hp E) as [c Hc]. rewrite Hs. simpl. exists (L (fun e => S e) / v0). split; [reflexivity|]. apply K.
  assert (Hi : (i < length (s_par s))%nat) by (apply nth_error_Some; congruence).
  assert (E0 : L (fun e => S e) = v0 * L c).
  { rewrite <- Lc. apply Le. intros e I. rewrite <- Hc by auto. do 2 f_equal. symmetry. clear - Hv. revert i Hv. induction (s_par s) as [|a l IH]; intros [|i] H; simpl in *; try discriminate; [congruence|f_equal; auto]. }
  rewrite E0. apply derive_eq with (L c); [|field; auto]. apply derive_same with (fun v => v * L c).
  - apply derive_same with (fun v => L c * v); [|intros; ring]. apply derive_eq with (L c * 1); [|ring]. apply SmapGrad.derive_scal, derivable_pt_lim_id.
  - intros v. rewrite <- Lc. apply Le. intros e I. symmetry. now apply Hc.
Qed.
Lemma npred_derive name i : well_formed s -> true_derivative s name i (s_en s) -> (name = "Prefactor"%string -> proportional s i (s_en s)) ->
  exists d, npred_deriv s name = Ok d /\ partial_at (of_par s npred) (s_par s) i d.
Proof.
  intros W T Hp. apply (prefactor_derive npred (fun F => log_rule (s_en s) (products F (s_en s) (s_ex s))) _ name i (s_en s)); auto.
  - intros p. pose proof W as W'. unfold npred. destruct W as (N & P & L). rewrite (integrand_products _ _ (fun e => sp_val (s_spec s) p e) (s_ex s)); [simpl|auto|simpl; lia|apply vec_get_nth].
    apply log_integral_rule; auto. apply products_length. lia.
  - now apply npred_ok.
  - intros F G E. now rewrite (products_ext F G).
  - intros. apply log_rule_scal.
  - intros. now apply derive_log_rule.
  - destruct W as (N & P & L). destruct T as (Hn & _). rewrite (integrand_products _ _ (sp_der (s_spec s) (s_par s) i) (s_ex s)); [simpl| |lia|apply vec_get_nth].
    + apply log_integral_rule; auto. apply products_length. lia.
    + intros e _. unfold deriv_at. now rewrite Hn.
Qed.

(** ** Ranges of energies *)
Lemma loop_shape en ex st ls le : forall n k es xs, exposure_loop en ex st ls le k n = Ok (es, xs) -> length es = n /\ length xs = n /\ Forall (Rlt 0) es.
Proof.
  induction n as [|n IH]; intros k es xs H; simpl in H; [injection H as <- <-; auto|].
  destruct (exposure_at _ _ _ _) as [x| |]; try discriminate. simpl in H. destruct (exposure_loop _ _ _ _ _ (Datatypes.S k) n) as [[es' xs']| |] eqn:E; try discriminate.
  simpl in H. injection H as <- <-. destruct (IH _ _ _ E) as (A & B & C). simpl. repeat split; auto. constructor; auto. apply exp_pos.
Qed.
Lemma arrays_shape a b n es xs : well_formed s -> exposure_arrays s a b n = Ok (es, xs) -> n <> 1%nat -> (2 <= length es)%nat /\ length xs = length es /\ Forall (Rlt 0) es.
Proof.
  intros (N & P & L) H Hn. unfold exposure_arrays in H. destruct (s_en s) as [|f en] eqn:E; [discriminate|].
  destruct (_ && _) in H; [injection H as <- <-; auto|]. destruct (_ && _) eqn:G in H; [|discriminate].
  apply loop_shape in H. destruct H as (A & B & C). split; [|split; auto; lia]. rewrite A. destruct n as [|[|n]]; simpl in *; lia.
Qed.
Lemma npred_range_ok a b es xs : well_formed s -> exposure_arrays s a b 0 = Ok (es, xs) -> npred_range s a b = Ok (log_rule es (products (fun e => S e) es xs)).
Proof.
  intros W H. destruct (arrays_shape _ _ _ _ _ W H ltac:(lia)) as (N & L & P). unfold npred_range. rewrite H. simpl.
  rewrite (integrand_products _ _ (fun e => S e) xs); [simpl|auto|lia|apply vec_at_nth]. apply log_integral_rule; auto. apply products_length. lia.
Qed.
Lemma npred_range_derive name i a b es xs : well_formed s -> exposure_arrays s a b 0 = Ok (es, xs) ->
  true_derivative s name i es -> (name = "Prefactor"%string -> proportional s i es) ->
  exists d, npred_deriv_range s name a b = Ok d /\ partial_at (of_par s (fun s => npred_range s a b)) (s_par s) i d.
Proof.
  intros W H T Hp. destruct (arrays_shape _ _ _ _ _ W H ltac:(lia)) as (N & L & P). unfold npred_deriv_range. rewrite H. simpl obind.
  apply (prefactor_derive (fun s => npred_range s a b) (fun F => log_rule es (products F es xs)) _ name i es); auto.
  - intros p. unfold npred_range. change (exposure_arrays (with_par s p) a b 0) with (exposure_arrays s a b 0). rewrite H. simpl.
    rewrite (integrand_products _ _ (fun e => sp_val (s_spec s) p e) xs); [simpl|auto|lia|apply vec_at_nth]. apply log_integral_rule; auto. apply products_length. lia.
  - now apply npred_range_ok.
  - intros F G E. now rewrite (products_ext F G).
  - intros. apply log_rule_scal.
  - intros. now apply derive_log_rule.
  - destruct T as (Hn & _). rewrite (integrand_products _ _ (sp_der (s_spec s) (s_par s) i) xs); [simpl| |lia|apply vec_get_nth].
    + apply log_integral_rule; auto. apply products_length. lia.
    + intros e _. unfold deriv_at. now rewrite Hn.
Qed.

(** ** Cells and fluxes: no shortcut *)
Lemma plain_derive (f : source -> outcome R) (L : (R -> R) -> R) (dv : outcome R) name i es :
  (forall p, f (with_par s p) = Ok (L (fun e => sp_val (s_spec s) p e))) ->
  (forall F D v0, (forall e, In e es -> derivable_pt_lim (fun v => F v e) v0 (D e)) -> derivable_pt_lim (fun v => L (F v)) v0 (L D)) ->
  dv = Ok (L (sp_der (s_spec s) (s_par s) i)) -> true_derivative s name i es ->
  exists d, dv = Ok d /\ partial_at (of_par s f) (s_par s) i d.
Proof.
  intros Hf Ld Hd (Hn & v0 & Hv & D). exists (L (sp_der (s_spec s) (s_par s) i)). split; auto.
  exists v0, 1, (fun v => L (fun e => sp_val (s_spec s) (upd (s_par s) i v) e)). split; auto. split; [lra|]. split.
  - intros v _. unfold of_par. now rewrite Hf.
  - apply Ld. exact D.
Qed.
Lemma cell_derive lin emin emax w1 w2 F D v0 : (forall e, In e [emin; emax] -> derivable_pt_lim (fun v => F v e) v0 (D e)) ->
  derivable_pt_lim (fun v => cell_integral lin emin emax (F v emin * w1) (F v emax * w2)) v0 (cell_integral lin emin emax (D emin * w1) (D emax * w2)).
Proof.
  intros H. assert (H1 := H emin (or_introl eq_refl)). assert (H2 := H emax (or_intror (or_introl eq_refl))).
  assert (K : forall c1 c2, derivable_pt_lim (fun v => c1 * F v emin + c2 * F v emax) v0 (c1 * D emin + c2 * D emax)).
  { intros. apply derive_plus; now apply SmapGrad.derive_scal. }
  unfold cell_integral. destruct lin.
  - apply derive_eq with (w1 * (emax - emin) / 2 * D emin + w2 * (emax - emin) / 2 * D emax); [|field].
    apply derive_same with (fun v => w1 * (emax - emin) / 2 * F v emin + w2 * (emax - emin) / 2 * F v emax); [apply K|intros; field].
  - set (l := ln (emax / emin)). apply derive_eq with (w1 * emin * l / 2 * D emin + w2 * emax * l / 2 * D emax); [|field].
    apply derive_same with (fun v => w1 * emin * l / 2 * F v emin + w2 * emax * l / 2 * F v emax); [apply K|intros; field].
Qed.
Lemma pixel_derive lin emin emax w1 w2 name i : true_derivative s name i [emin; emax] ->
  exists d, pixel_counts_deriv lin s emin emax w1 w2 name = Ok d /\ partial_at (of_par s (fun s => pixel_counts lin s emin emax w1 w2)) (s_par s) i d.
Proof.
  intros T. apply (plain_derive _ (fun F => cell_integral lin emin emax (F emin * w1) (F emax * w2)) _ name i [emin; emax]); auto.
  - intros. now apply (cell_derive lin emin emax w1 w2).
  - unfold pixel_counts_deriv, deriv_at. destruct T as (Hn & _). now rewrite Hn.
Qed.
Lemma energy_integral_ok f F ang es : (forall e, In e es -> f e = Ok (F e)) -> (2 <= length es)%nat -> Forall (Rlt 0) es ->
  energy_integral f ang es = Ok (log_rule es (products F es (map ang es))).
Proof.
  intros Hf N P. unfold energy_integral. rewrite (integrand_products _ _ F (map ang es)); auto.
  - simpl. apply log_integral_rule; auto. apply products_length. rewrite map_length. lia.
  - rewrite map_length. lia.
  - intros j Hj. rewrite map_length in Hj. f_equal. rewrite (nth_indep (map ang es) 0 (ang 0)) by (rewrite map_length; auto). now rewrite map_nth.
Qed.
Lemma flux_derive ang a name i : (2 <= length (grid_of s a))%nat -> Forall (Rlt 0) (grid_of s a) -> true_derivative s name i (grid_of s a) ->
  exists d, flux_deriv s ang name a = Ok d /\ partial_at (of_par s (fun s => flux s ang a)) (s_par s) i d.
Proof.
  intros N P T. apply (plain_derive _ (fun F => log_rule (grid_of s a) (products F (grid_of s a) (map ang (grid_of s a)))) _ name i (grid_of s a)); auto.
  - intros p. unfold flux. replace (grid_of (with_par s p) a) with (grid_of s a) by (now destruct a). now apply energy_integral_ok.
  - intros. now apply derive_log_rule.
  - unfold flux_deriv. apply energy_integral_ok; auto. intros e _. unfold deriv_at. destruct T as (Hn & _). now rewrite Hn.
Qed.
Lemma energy_flux_derive ang a name i : (2 <= length (grid_of s a))%nat -> Forall (Rlt 0) (grid_of s a) -> true_derivative s name i (grid_of s a) ->
  exists d, energy_flux_deriv s ang name a = Ok d /\ partial_at (of_par s (fun s => energy_flux s ang a)) (s_par s) i d.
Proof.
  intros N P T. apply (plain_derive _ (fun F => log_rule (grid_of s a) (products (fun e => e * F e) (grid_of s a) (map ang (grid_of s a)))) _ name i (grid_of s a)); auto.
  - intros p. unfold energy_flux. replace (grid_of (with_par s p) a) with (grid_of s a) by (now destruct a). now apply energy_integral_ok.
  - intros. apply (derive_log_rule (fun v e => e * F v e)). intros. now apply SmapGrad.derive_scal; auto.
  - unfold energy_flux_deriv. apply energy_integral_ok; auto. intros e _. unfold deriv_at. destruct T as (Hn & _). now rewrite Hn.
Qed.
End Src.
Lemma log_grid_length a b n : length (log_grid a b n) = n.
Proof. unfold log_grid. now rewrite map_length, seq_length. Qed.
Lemma log_grid_pos a b n : 0 < a -> Forall (Rlt 0) (log_grid a b n).
Proof. intros H. unfold log_grid. apply Forall_forall. intros x I. apply in_map_iff in I. destruct I as (k & <- & _). apply Rmult_lt_0_compat; auto. apply exp_pos. Qed.

(** C82/C182: priors, errors and scans of the fit scanner. *)
From Coq Require Import Reals Lra Psatz ZArith List Bool Arith Lia.
From Flocq Require Import Core.
From Verif Require Import Base AccumModel AccumProofs DexpSpec FpsModel FpsSpec FpsProofs.
Import ListNotations.
Local Open Scope R_scope.

(** ** C82 *)
(** The priors of the model: the scanner adds the sum of -1/2 ((value - mean) / sigma)^2 over the free sources that have one. *)
Theorem C82_init c ms free : length ms = length (c_refs c) -> length free = length (c_refs c) ->
  (forall r, In r (c_refs c) -> 1 / 10 ^ 15 <= r) -> (forall mean sigma, In (Some (mean, sigma)) ms -> 0 < sigma) ->
  exists c1 c2, extract_init_priors_from_model c ms = Ok c1 /\ refactorPrior c1 free = Ok c2 /\ c_refs c2 = c_refs c /\ c_local c2 = c_local c /\ c_global c2 = c_global c /\
  forall test ps t, length ps = count free ->
    match getPrior c2 Init_Prior test with
    | None => penalty ms (c_refs c) free ps = 0
    | Some p => logLikelihood p (ps ++ if test then [t] else []) = Ok (penalty ms (c_refs c) free ps)
    end.
Proof. apply init_ok. Qed.
Print Assumptions C82_init.

(** A covariance given from outside, all parameters constrained. *)
Theorem C82_external inv c cent cov h global : right_inv inv -> covariance cov -> length cent = dim cov -> inv cov = Some h ->
  (global = true -> snd (c_local c) <> None -> snd (c_global c) <> None) ->
  exists c', buildPriorsFromExternal inv c cent cov (repeat true (dim cov)) global = Ok c' /\ c_refs c' = c_refs c /\ c_pars c' = c_pars c /\ c_init c' = c_init c /\
  (if global then c_local c' = c_local c else c_global c' = c_global c) /\
  forall test, exists p, getPrior c' (if global then Global_Prior else Local_Prior) test = Some p /\
  forall ps t, length ps = dim cov -> exists l, logLikelihood p (ps ++ if test then [t] else []) = Ok l /\
    l = - (1 / 2) * quad h (fun i => nth i ps 0 - nth i cent 0) /\ l <= 0 /\ (ps = cent -> l = 0).
Proof.
  intros Hinv Hc Lc Hi Hg. destruct (Hinv cov h Hi) as (I & Sh). destruct (external_ok inv c cent cov h global Lc (proj1 I) Hi Hg) as (c' & E & R1 & R2 & R3 & R4 & V).
  exists c'. repeat (split; [assumption|]). intros test. destruct (V test) as (p & Ep & Vp). exists p. split; [exact Ep|]. intros ps t Lp. eexists. split; [apply Vp; exact Lp|]. split; [reflexivity|]. split.
  - pose proof (inverse_nonneg h cov (fun i => nth i ps 0 - nth i cent 0) I Hc (Sh (proj1 Hc))). lra.
  - intros ->. rewrite quad_zero; [lra|]. intros; lra.
Qed.
Print Assumptions C82_external.

(** Only some parameters constrained: the inverse is that of the block of the covariance of those, the [a]-th of them being
    the parameter [i] before which there are [a] constrained ones. *)
Lemma idx_nth l : forall k i, nth i l false = true -> nth (count (firstn i l)) (idx_red k l) 0%nat = (k + i)%nat /\ (count (firstn i l) < count l)%nat.
Proof.
  induction l as [|b l IH]; intros k [|i] H; cbn in H; try discriminate.
  - subst b. cbn. split; lia.
  - destruct (IH (S k) i H) as (E & L). destruct b; cbn; split; try lia; rewrite ?E; lia.
Qed.
Theorem C82_subset_matrix inv cent cov constrain test p : right_inv inv -> length constrain = dim cov -> update_cov inv cent cov constrain test = Ok p ->
  exists m, dim m = count constrain /\
    (forall i j, nth i constrain false = true -> nth j constrain false = true -> el m (count (firstn i constrain)) (count (firstn j constrain)) = el cov i j) /\
    exists h, inverse_of h m /\ p_cov p = cov /\ p_constrain p = constrain /\
    if test then dim (p_hess p) = S (count constrain) /\ forall a b, (a < S (count constrain))%nat -> (b < S (count constrain))%nat ->
      el (p_hess p) a b = if (a <? count constrain)%nat && (b <? count constrain)%nat then el h a b else 0
    else p_hess p = h.
Proof.
  intros Hinv L E. unfold update_cov, latchReducedMatrix in E. rewrite idx_len in E.
  assert (F : forallb (fun i => (i <? dim cov)%nat) (idx_red 0 constrain) = true).
  { apply forallb_forall. intros i Hi. apply idx_in in Hi. apply Nat.ltb_lt. lia. }
  rewrite F in E.
  match type of E with obind ?o _ = _ => assert (exists m, o = Ok m /\ dim m = count constrain /\ forall i j, nth i constrain false = true -> nth j constrain false = true -> el m (count (firstn i constrain)) (count (firstn j constrain)) = el cov i j) as (m & Em & Dm & Vm) end.
  { destruct (Nat.ltb_spec (count constrain) (dim cov)) as [H|H]; eexists; (split; [reflexivity|]).
    - split; [reflexivity|]. intros i j Hi Hj. cbn [el]. rewrite (proj1 (idx_nth constrain 0 i Hi)), (proj1 (idx_nth constrain 0 j Hj)). reflexivity.
    - assert (A : forall l, (length l <= count l)%nat -> l = repeat true (length l)).
      { assert (C : forall l, (count l <= length l)%nat) by (induction l as [|[] l IH]; cbn; lia). induction l as [|[] l IH]; cbn; intros Hl; [reflexivity|f_equal; apply IH; lia|specialize (C l); lia]. }
      rewrite (A constrain) by lia. rewrite L. split; [now rewrite count_repeat|]. intros i j Hi Hj.
      assert (B : forall n i, nth i (repeat true n) false = true -> count (firstn i (repeat true n)) = i). { induction n as [|n IH]; intros [|k] Hk; cbn in *; try discriminate; [reflexivity|]. now rewrite IH. }
      now rewrite (B _ i Hi), (B _ j Hj). }
  rewrite Em in E. cbn [obind] in E. destruct (inv m) as [h|] eqn:Ei; [|discriminate]. destruct (Hinv m h Ei) as (I & _). exists m. split; [exact Dm|]. split; [exact Vm|]. exists h. split; [exact I|].
  destruct I as (Dh & _). destruct test; cbn [obind] in E.
  - unfold set_block in E. rewrite Dh, Dm in E. destruct (Nat.ltb_spec (count constrain + 1) (count constrain)) as [X|_]; [lia|]. cbn [obind] in E. injection E as <-. cbn [p_cov p_constrain p_hess dim el]. split; [reflexivity|]. split; [reflexivity|]. split; [lia|]. intros a b _ _. reflexivity.
  - injection E as <-. cbn [p_cov p_constrain p_hess]. split; [reflexivity|]. split; reflexivity.
Qed.
Print Assumptions C82_subset_matrix.

(** The prior made of the last fit, with all sources free: centred on its parameters, with its covariance times the factor. *)
Theorem C82_current inv c f h global : right_inv inv -> 0 < f -> covariance (c_cov c) ->
  length (c_pars c) = (length (c_refs c) + if c_has_test c then 1 else 0)%nat -> dim (c_cov c) = length (c_pars c) ->
  inv (mk_mat (length (c_refs c)) (fun i j => f * el (c_cov c) i j)) = Some h ->
  (global = true -> snd (c_local c) <> None -> snd (c_global c) <> None) ->
  exists c', buildPriorsFromCurrent inv c (repeat true (length (c_refs c))) f global = Ok c' /\
  forall test, exists p, getPrior c' (if global then Global_Prior else Local_Prior) test = Some p /\
  forall ps t, length ps = length (c_refs c) -> exists l, logLikelihood p (ps ++ if test then [t] else []) = Ok l /\
    l = - (1 / 2) * quad h (fun i => nth i ps 0 - nth i (c_pars c) 0) /\ l <= 0 /\ ((forall i, (i < length ps)%nat -> nth i ps 0 = nth i (c_pars c) 0) -> l = 0).
Proof.
  intros Hinv Hf Hc Lp Dc Hi Hg. set (n := length (c_refs c)) in *.
  pose proof (part_covariance n (if c_has_test c then 1 else 0)%nat (c_cov c) f Hc ltac:(congruence) Hf) as Hp.
  destruct (Hinv _ h Hi) as (I & Sh). cbn [dim] in *. assert (Dh : dim h = n) by (apply (proj1 I)).
  assert (B : forall cent, length cent = n -> (forall i, (i < n)%nat -> nth i cent 0 = nth i (c_pars c) 0) ->
    exists c', buildPriorsFromExternal inv c cent (mk_mat n (fun i j => f * el (c_cov c) i j)) (repeat true n) global = Ok c' /\
    forall test, exists p, getPrior c' (if global then Global_Prior else Local_Prior) test = Some p /\
    forall ps t, length ps = n -> exists l, logLikelihood p (ps ++ if test then [t] else []) = Ok l /\
      l = - (1 / 2) * quad h (fun i => nth i ps 0 - nth i (c_pars c) 0) /\ l <= 0 /\ ((forall i, (i < length ps)%nat -> nth i ps 0 = nth i (c_pars c) 0) -> l = 0)).
  { intros cent Lc Hce. destruct (external_ok inv c cent (mk_mat n (fun i j => f * el (c_cov c) i j)) h global Lc Dh Hi Hg) as (c' & E & _ & _ & _ & _ & V).
    exists c'. split; [exact E|]. intros test. destruct (V test) as (p & Ep & Vp). exists p. split; [exact Ep|]. intros ps t L. eexists. split; [apply Vp; exact L|].
    split; [|split].
    - f_equal. apply quad_ext. intros i Hi'. rewrite Hce by lia. reflexivity.
    - pose proof (inverse_nonneg h _ (fun i => nth i ps 0 - nth i cent 0) I Hp (Sh (proj1 Hp))). lra.
    - intros Hps. rewrite quad_zero; [lra|]. intros i Hi'. rewrite Hce, Hps by lia. lra. }
  unfold buildPriorsFromCurrent, nBkgModel. fold n. destruct (c_has_test c) eqn:Et; cbn [negb].
  - destruct (Nat.ltb_spec (length (c_pars c)) n); [lia|]. unfold block. destruct (Nat.ltb_spec (dim (c_cov c)) n); [lia|]. cbn [obind]. apply (B (firstn n (c_pars c))).
    + rewrite firstn_length. lia.
    + intros i Hi'. rewrite <- (firstn_skipn n (c_pars c)) at 2. rewrite app_nth1; [reflexivity|]. rewrite firstn_length. lia.
  - destruct (B (c_pars c)) as (c' & E & V); [lia|reflexivity|]. exists c'. split; [|exact V]. unfold scaled. rewrite Dc. replace (length (c_pars c)) with n by lia. exact E.
Qed.
Print Assumptions C82_current.

(** What a prior contributes to the gradient is the change of its log-likelihood with each of the parameters. *)
Theorem C82_gradient p ps1 x ps2 l g e : symmetric (p_hess p) -> logLikelihood p (ps1 ++ x :: ps2) = Ok l -> gradient p (ps1 ++ x :: ps2) = Ok g ->
  length g = length (ps1 ++ x :: ps2) /\
  logLikelihood p (ps1 ++ (x + e) :: ps2) = Ok (l - e * nth (length ps1) g 0 - 1 / 2 * (e * e) * el (p_hess p) (length ps1) (length ps1)).
Proof.
  intros Sh. unfold logLikelihood, gradient. rewrite !app_length. cbn [length]. set (n := (length ps1 + S (length ps2))%nat).
  destruct (Nat.eqb_spec n (length (p_cent p))) as [Hc|_]; cbn [negb]; [|discriminate]. destruct (Nat.eqb_spec (dim (p_hess p)) n) as [Hd|_]; cbn [negb]; [|discriminate].
  intros El Eg. injection El as <-. injection Eg as <-. split; [now rewrite map_length, seq_length|]. f_equal.
  set (i := length ps1). set (d := fun k => nth k (ps1 ++ x :: ps2) 0 - nth k (p_cent p) 0).
  assert (Q : forall y, msum (dim (p_hess p)) (fun a => msum (dim (p_hess p)) (fun b => (nth a (ps1 ++ y :: ps2) 0 - nth a (p_cent p) 0) * el (p_hess p) a b * (nth b (ps1 ++ y :: ps2) 0 - nth b (p_cent p) 0))) = quad (p_hess p) (fun k => nth k (ps1 ++ y :: ps2) 0 - nth k (p_cent p) 0)).
  { intros y. unfold quad. rewrite msum_sum. apply sum_ext. intros a _. apply msum_sum. }
  rewrite !Q. fold d.
  rewrite (quad_ext _ _ (fun k => d k + (if Nat.eqb i k then e else 0))).
  - rewrite (quad_step _ d i e Sh) by (unfold i; lia). rewrite nth_seq_map by (unfold i; lia). change (fun j => el (p_hess p) i j * (nth j (ps1 ++ x :: ps2) 0 - nth j (p_cent p) 0)) with (fun k => el (p_hess p) i k * d k). rewrite (msum_sum (dim (p_hess p)) (fun k => el (p_hess p) i k * d k)). lra.
  - intros k _. unfold d. destruct (Nat.eqb_spec i k) as [<-|N].
    + unfold i. rewrite !app_nth2, Nat.sub_diag by lia. cbn [nth]. lra.
    + destruct (Nat.lt_ge_cases k i) as [H|H]; [rewrite !app_nth1 by exact H; lra|]. rewrite !app_nth2 by exact H. replace (k - length ps1)%nat with (S (k - i - 1)) by (unfold i in *; lia). cbn [nth]. lra.
Qed.
Print Assumptions C82_gradient.

(** The errors are the positive roots of x^2 / variance + gradient x = delta, and of the same with -gradient. *)
Theorem C82_errors cov grad par delta pos0 neg0 : 1 / 10 ^ 10 <= cov -> 0 <= delta ->
  exists pos neg x, signalUncertainty_quad true cov grad par delta pos0 neg0 = Ok (0%Z, pos, neg) /\
  0 <= pos /\ pos * pos / cov + grad * pos = delta /\ 0 <= x /\ x * x / cov - grad * x = delta /\
  (par < x -> neg = -1 /\ symmetricError pos neg = pos) /\ (x <= par -> neg = x /\ symmetricError pos neg = (pos + x) / 2).
Proof.
  intros Hc Hd. assert (P : 0 < 1 / 10 ^ 10) by (apply Rdiv_lt_0_compat; [lra|apply pow_lt; lra]). assert (Pc : 0 < cov) by lra.
  unfold signalUncertainty_quad. cbn [negb]. rewrite Rabs_right by lra. destruct (Rltb_spec cov (1 / 10 ^ 10)); [lra|].
  assert (Pa : 0 < 1 / cov) by (apply Rdiv_lt_0_compat; lra). set (a := 1 / cov) in *. set (det := grad * grad + 4 * a * delta).
  assert (Hdet : grad * grad <= det) by (unfold det; assert (0 <= a * delta) by (apply Rmult_le_pos; lra); lra). assert (0 <= grad * grad) by (apply Rle_0_sqr). destruct (Rltb_spec det 0); [lra|].
  set (s := sqrt det). assert (Hs : s * s = det) by (apply sqrt_sqrt; lra). assert (Ps : 0 <= s) by apply sqrt_pos.
  assert (Ha : Rabs grad <= s). { unfold s. rewrite <- sqrt_Rsqr_abs. apply sqrt_le_1_alt. unfold Rsqr. exact Hdet. }
  assert (G1 : grad <= s /\ - grad <= s) by (unfold Rabs in Ha; destruct (Rcase_abs grad); lra).
  assert (Ec : forall y, y * y / cov = a * (y * y)) by (intros; unfold a; field; lra).
  assert (N1 : 0 <= (- grad + s) / (2 * a)) by (apply Rmult_le_pos; [lra|]; apply Rlt_le, Rinv_0_lt_compat; lra).
  assert (N2 : 0 <= (grad + s) / (2 * a)) by (apply Rmult_le_pos; [lra|]; apply Rlt_le, Rinv_0_lt_compat; lra).
  exists ((- grad + s) / (2 * a)). eexists. exists ((grad + s) / (2 * a)). split; [reflexivity|].
  split; [exact N1|]. split. { rewrite Ec. replace (a * ((- grad + s) / (2 * a) * ((- grad + s) / (2 * a))) + grad * ((- grad + s) / (2 * a))) with ((s * s - grad * grad) / (4 * a)) by (field; lra). rewrite Hs. unfold det. field. lra. }
  split; [exact N2|]. split. { rewrite Ec. replace (a * ((grad + s) / (2 * a) * ((grad + s) / (2 * a))) - grad * ((grad + s) / (2 * a))) with ((s * s - grad * grad) / (4 * a)) by (field; lra). rewrite Hs. unfold det. field. lra. }
  unfold symmetricError. split; intros Hx; (destruct (Rltb_spec par ((grad + s) / (2 * a))); [|try lra]); try lra; (split; [reflexivity|]).
  - destruct (Rltb_spec (-1) 0); [reflexivity|lra].
  - destruct (Rltb_spec ((grad + s) / (2 * a)) 0); [lra|reflexivity].
Qed.
Print Assumptions C82_errors.

(** A scan: equidistant normalisations, and for each the likelihood of the model with the test source fixed at it. *)
Theorem C82_scan (fit : list R -> option prior -> Z * R) (like : list R -> R) c fixed target reduced first last nnorm normSigma posErr negErr :
  c_has_test c = true -> c_pars c <> [] -> (2 <= nnorm)%nat -> (first <= last)%nat -> (last <= length fixed)%nat -> (last <= length target)%nat ->
  (if (1 <? length (c_pars c))%nat then forall m, fst (fit m (snd (c_local c))) = 0%Z else reduced = true) ->
  exists norms likes lo hi, scanNormalization fit like c fixed target reduced first last nnorm normSigma posErr negErr = Ok (0%Z, norms, likes) /\
  length norms = nnorm /\ length likes = nnorm /\
  lo = (if Rltb negErr 0 then 1 / 10 ^ 10 else Rmax (1 / 10 ^ 10) (List.last (c_pars c) 0 - normSigma * negErr)) /\
  hi = (if Rltb posErr 0 then 25 / 10 ^ 5 else Rmax (25 / 10 ^ 5) (List.last (c_pars c) 0 + normSigma * posErr)) /\
  nth 0 norms 0 = lo /\ nth (nnorm - 1) norms 0 = hi /\
  forall i, (i < nnorm)%nat -> nth i norms 0 = lo + INR i * ((hi - lo) / INR (nnorm - 1)) /\
    exists m, model_with fixed target first last (nth i norms 0) m /\ nth i likes 0 = if (1 <? length (c_pars c))%nat then snd (fit m (snd (c_local c))) else like m.
Proof.
  intros Ht Hp Hn Hfl Lf Lt Hfit. unfold scanNormalization. rewrite Ht. cbn [negb].
  assert (E : vec_get (c_pars c) (length (c_pars c) - 1) = Ok (List.last (c_pars c) 0)).
  { destruct (exists_last Hp) as (l & a & ->). rewrite last_last, app_length. cbn [length]. unfold vec_get. rewrite nth_error_app2 by lia. replace (length l + 1 - 1 - length l)%nat with 0%nat by lia. reflexivity. }
  rewrite E. cbn [obind]. unfold scan_range. cbn [fst snd].
  set (lo := if Rltb negErr 0 then _ else _). set (hi := if Rltb posErr 0 then _ else _).
  assert (Es : (hi - lo) / (INR nnorm - 1) = (hi - lo) / INR (nnorm - 1)) by (rewrite minus_INR by lia; reflexivity). rewrite Es. set (step := (hi - lo) / INR (nnorm - 1)).
  set (others := (1 <? length (c_pars c))%nat) in *. set (bkg := snd (c_local c)) in *.
  set (mt := fun s => map (fun i => if (first <=? i)%nat && (i <? last)%nat then nth i fixed 0 + s * nth i target 0 else 0) (seq 0 (length fixed))).
  set (val := fun s => if others then snd (fit (mt s) bkg) else like (mt s)).
  assert (L : forall n s ns ls, scan_loop fit like n s step fixed target (if reduced then target else []) first last others bkg ns ls =
    Ok (0%Z, ns ++ map (fun i => s + INR i * step) (seq 0 n), ls ++ map (fun i => val (s + INR i * step)) (seq 0 n))).
  { induction n as [|n IH]; intros s ns ls; [cbn; now rewrite !app_nil_r|]. cbn [scan_loop]. unfold fixed_temp.
    destruct (Nat.ltb_spec (length fixed) last); [lia|]. destruct (Nat.ltb_spec (length target) last); [lia|]. destruct (Nat.ltb_spec last first); [lia|]. cbn [orb obind]. fold (mt s).
    assert (M : forall (f : R -> R), map (fun i => f (s + INR i * step)) (seq 0 (S n)) = f s :: map (fun i => f (s + step + INR i * step)) (seq 0 n)).
    { intros f. cbn [seq map]. f_equal; [f_equal; cbn; lra|]. rewrite <- seq_shift, map_map. apply map_ext. intros i. f_equal. rewrite S_INR. lra. }
    rewrite (M (fun y => y)), (M val).
    replace (val s :: map (fun i => val (s + step + INR i * step)) (seq 0 n)) with ([val s] ++ map (fun i => val (s + step + INR i * step)) (seq 0 n)) by reflexivity.
    replace (s :: map (fun i => s + step + INR i * step) (seq 0 n)) with ([s] ++ map (fun i => s + step + INR i * step) (seq 0 n)) by reflexivity. rewrite !app_assoc.
    unfold val at 1. destruct others.
    - rewrite Hfit. cbn [Z.eqb]. now rewrite IH.
    - subst reduced. destruct (Nat.ltb_spec (length target) last); [lia|]. now rewrite IH. }
  rewrite L. cbn [app].
  exists (map (fun i => lo + INR i * step) (seq 0 nnorm)), (map (fun i => val (lo + INR i * step)) (seq 0 nnorm)), lo, hi.
  split; [reflexivity|]. rewrite !map_length, !seq_length. split; [reflexivity|]. split; [reflexivity|]. split; [reflexivity|]. split; [reflexivity|].
  split; [rewrite nth_seq_map by lia; cbn; lra|]. split; [rewrite nth_seq_map by lia; unfold step; field; apply not_0_INR; lia|].
  intros i Hi. rewrite !nth_seq_map by exact Hi. split; [reflexivity|]. exists (mt (lo + INR i * step)). split; [|reflexivity].
  unfold mt. split; [now rewrite map_length, seq_length|]. intros j Hj. rewrite nth_seq_map by lia. destruct (Nat.leb_spec first j); [|lia]. destruct (Nat.ltb_spec j last); [|lia]. reflexivity.
Qed.
Print Assumptions C82_scan.

(** ** C182 *)
(** Claim: a subset of the parameters can be constrained.  The central values are not reduced with the matrix: every
    evaluation of the prior fails. *)
Theorem C82_subset_refuted inv c cent cov constrain global c' test p ps : right_inv inv -> length cent = dim cov -> length constrain = dim cov -> (count constrain < dim cov)%nat ->
  buildPriorsFromExternal inv c cent cov constrain global = Ok c' ->
  getPrior c' (if global then Global_Prior else Local_Prior) test = Some p -> logLikelihood p ps = Throw.
Proof.
  intros Hinv Lc Lk Hk.
  assert (B : forall t q, update_cov inv cent cov constrain t = Ok q -> logLikelihood q ps = Throw).
  { intros t q. unfold update_cov, latchReducedMatrix. rewrite idx_len. destruct (Nat.ltb_spec (count constrain) (dim cov)); [|lia].
    destruct (forallb _ _); cbn [obind]; [|discriminate]. destruct (inv _) as [h|] eqn:Eh; [|discriminate]. destruct (Hinv _ _ Eh) as ((Dh & _) & _). cbn [dim] in Dh.
    destruct t.
    - unfold set_block. destruct (_ <? _)%nat; cbn [obind]; [discriminate|]. intros Eq. injection Eq as <-. unfold logLikelihood. cbn [p_cent p_hess dim]. rewrite app_length. cbn [length].
      destruct (Nat.eqb_spec (length ps) (length cent + 1)) as [El|_]; cbn [negb]; [|reflexivity]. destruct (Nat.eqb_spec (count constrain + 1) (length ps)) as [El2|_]; cbn [negb]; [lia|reflexivity].
    - cbn [obind]. intros Eq. injection Eq as <-. unfold logLikelihood. cbn [p_cent p_hess].
      destruct (Nat.eqb_spec (length ps) (length cent)) as [El|_]; cbn [negb]; [|reflexivity]. destruct (Nat.eqb_spec (dim h) (length ps)) as [El2|_]; cbn [negb]; [lia|reflexivity]. }
  unfold buildPriorsFromExternal. destruct global.
  - destruct (update_cov inv cent cov constrain true) as [t| |] eqn:Et; cbn [obind]; try discriminate. destruct (update_cov inv cent cov constrain false) as [b| |] eqn:Eb; cbn [obind]; try (destruct (snd (c_local c)), (snd (c_global c)); discriminate).
    intros E. assert (E' : c' = set_global c (Some t, Some b)) by (destruct (snd (c_local c)), (snd (c_global c)); try discriminate; now injection E). subst c'. destruct test; cbn; intros Ep; injection Ep as <-; eapply B; eassumption.
  - destruct (update_cov inv cent cov constrain true) as [t| |] eqn:Et; cbn [obind]; try discriminate. destruct (update_cov inv cent cov constrain false) as [b| |] eqn:Eb; cbn [obind]; try discriminate.
    intros E. injection E as <-. destruct test; cbn; intros Ep; injection Ep as <-; eapply B; eassumption.
Qed.
Print Assumptions C82_subset_refuted.

(** Claim: a global prior can be added after a local one.  The wrong pointer is tested: the missing global prior is updated. *)
Theorem C82_global_refuted inv c cent cov h l : length cent = dim cov -> dim h = dim cov -> inv cov = Some h -> snd (c_local c) = Some l -> snd (c_global c) = None ->
  buildPriorsFromExternal inv c cent cov (repeat true (dim cov)) true = UB.
Proof.
  intros Lc Dh Hi H1 H2. destruct (cov_prior inv cent cov h true Lc Dh Hi) as (pt & Et & _). unfold buildPriorsFromExternal. rewrite Et. cbn [obind]. now rewrite H1, H2.
Qed.
Print Assumptions C82_global_refuted.

(** Claim: the prior of the last fit can be made with fixed sources.  With the test source, the part that is kept has the
    size of all sources: it includes the parameter of the test source if one source is fixed, and is too large if more are.
    No fit of that configuration can use it. *)
Theorem C82_fixed_refuted inv c constrain f global : c_has_test c = true -> (length (c_pars c) <= length (c_refs c))%nat -> (1 <= length (c_pars c))%nat ->
  match buildPriorsFromCurrent inv c constrain f global with
  | Ok c' => forall test p ps, getPrior c' (if global then Global_Prior else Local_Prior) test = Some p ->
      length ps = (if test then length (c_pars c) else length (c_pars c) - 1)%nat -> logLikelihood p ps = Throw
  | _ => True
  end /\ ((length (c_pars c) < length (c_refs c))%nat -> buildPriorsFromCurrent inv c constrain f global = Throw).
Proof.
  intros Ht Hl H1. unfold buildPriorsFromCurrent, nBkgModel. rewrite Ht. cbn [negb]. destruct (Nat.ltb_spec (length (c_pars c)) (length (c_refs c))) as [H|H]; [split; [exact I|reflexivity]|]. split; [|intros; lia].
  assert (El : length (c_pars c) = length (c_refs c)) by lia. unfold block. destruct (dim (c_cov c) <? length (c_refs c))%nat; cbn [obind]; [exact I|]. rewrite <- El, firstn_all.
  set (cov := scaled f _).
  assert (B : forall t q, update_cov inv (c_pars c) cov constrain t = Ok q -> p_cent q = c_pars c ++ if t then [0] else []).
  { intros t q. unfold update_cov, latchReducedMatrix. match goal with |- context [obind ?x _] => destruct x as [m| |]; cbn [obind]; try discriminate end. destruct (inv m); [|discriminate]. destruct t; rewrite ?app_nil_r.
    - destruct (set_block _ _); cbn [obind]; try discriminate. intros Eq. now injection Eq as <-.
    - cbn [obind]. intros Eq. now injection Eq as <-. }
  assert (C : forall (t : bool) q ps, update_cov inv (c_pars c) cov constrain t = Ok q -> length ps = (if t then length (c_pars c) else length (c_pars c) - 1)%nat -> logLikelihood q ps = Throw).
  { intros t q ps Eq Lp. unfold logLikelihood. rewrite (B t q Eq), app_length. destruct (Nat.eqb_spec (length ps) (length (c_pars c) + length (if t then [0] else []))) as [E|_]; cbn [negb]; [|reflexivity]. destruct t; cbn [length] in E; lia. }
  unfold buildPriorsFromExternal. destruct global.
  - destruct (update_cov inv (c_pars c) cov constrain true) as [t| |] eqn:Et; cbn [obind]; try exact I. destruct (update_cov inv (c_pars c) cov constrain false) as [b| |] eqn:Eb; cbn [obind].
    2,3: destruct (snd (c_local c)), (snd (c_global c)); exact I.
    assert (G : forall test p ps, getPrior (set_global c (Some t, Some b)) Global_Prior test = Some p -> length ps = (if test then length (c_pars c) else length (c_pars c) - 1)%nat -> logLikelihood p ps = Throw).
    { intros [|] p ps Ep Lp; cbn in Ep; injection Ep as <-; [apply (C true t ps Et Lp)|apply (C false b ps Eb Lp)]. }
    destruct (snd (c_local c)), (snd (c_global c)); try exact I; exact G.
  - destruct (update_cov inv (c_pars c) cov constrain true) as [t| |] eqn:Et; cbn [obind]; try exact I. destruct (update_cov inv (c_pars c) cov constrain false) as [b| |] eqn:Eb; cbn [obind]; try exact I.
    intros [|] p ps Ep Lp; cbn in Ep; injection Ep as <-; [apply (C true t ps Et Lp)|apply (C false b ps Eb Lp)].
Qed.
Print Assumptions C82_fixed_refuted.

(** Claim: the global prior of the baseline fit can be used with the test source when sources are fixed.  All sources are
    constrained, the covariance has the free ones: every evaluation with the test source fails. *)
Theorem C82_fixed_global_refuted inv c f global c' p ps : right_inv inv -> c_has_test c = false -> dim (c_cov c) = length (c_pars c) -> (length (c_pars c) < length (c_refs c))%nat ->
  buildPriorsFromCurrent inv c (repeat true (length (c_refs c))) f global = Ok c' ->
  getPrior c' (if global then Global_Prior else Local_Prior) true = Some p -> logLikelihood p ps = Throw.
Proof.
  intros Hinv Ht Dc Hl. unfold buildPriorsFromCurrent. rewrite Ht. cbn [negb].
  assert (B : forall q, update_cov inv (c_pars c) (scaled f (c_cov c)) (repeat true (length (c_refs c))) true = Ok q -> logLikelihood q ps = Throw).
  { intros q. unfold update_cov, latchReducedMatrix. rewrite idx_len, count_repeat. cbn [scaled dim]. unfold scaled at 1. cbn [dim]. destruct (Nat.ltb_spec (length (c_refs c)) (dim (c_cov c))); [lia|]. cbn [obind].
    destruct (inv _) as [h|] eqn:Eh; [|discriminate]. unfold set_block. destruct (_ <? _)%nat; cbn [obind]; [discriminate|]. intros Eq. injection Eq as <-. unfold logLikelihood. cbn [p_cent p_hess dim]. rewrite app_length. cbn [length].
    destruct (Nat.eqb_spec (length ps) (length (c_pars c) + 1)) as [El|_]; cbn [negb]; [|reflexivity]. destruct (Nat.eqb_spec (length (c_refs c) + 1) (length ps)) as [El2|_]; cbn [negb]; [lia|reflexivity]. }
  unfold buildPriorsFromExternal. destruct (update_cov inv (c_pars c) (scaled f (c_cov c)) (repeat true (length (c_refs c))) true) as [t| |] eqn:Et; destruct global; cbn [obind]; try discriminate;
    destruct (update_cov inv (c_pars c) (scaled f (c_cov c)) (repeat true (length (c_refs c))) false) as [b| |] eqn:Eb; cbn [obind]; try discriminate; intros E.
  - assert (E' : c' = set_global c (Some t, Some b)) by (destruct (snd (c_local c)), (snd (c_global c)); try discriminate; now injection E). subst c'. cbn. intros Ep. injection Ep as <-. now apply B.
  - destruct (snd (c_local c)), (snd (c_global c)); discriminate.
  - destruct (snd (c_local c)), (snd (c_global c)); discriminate.
  - injection E as <-. cbn. intros Ep. injection Ep as <-. now apply B.
Qed.
Print Assumptions C82_fixed_global_refuted.

(** Claim: at the positive error the log-likelihood has dropped by delta.  At the maximum of a parabola x^2 / (2 variance) it
    has dropped by half of it. *)
Theorem C82_error_scale_refuted cov par delta pos0 neg0 : 1 / 10 ^ 10 <= cov -> 0 < delta ->
  exists pos neg, signalUncertainty_quad true cov 0 par delta pos0 neg0 = Ok (0%Z, pos, neg) /\ 0 < pos /\ pos * pos / (2 * cov) = delta / 2 /\ pos * pos = cov * delta.
Proof.
  intros Hc Hd. destruct (C82_errors cov 0 par delta pos0 neg0 Hc ltac:(lra)) as (pos & neg & x & E & P & Q & _). assert (P0 : 0 < 1 / 10 ^ 10) by (apply Rdiv_lt_0_compat; [lra|apply pow_lt; lra]).
  exists pos, neg. split; [exact E|]. assert (Q' : pos * pos = cov * delta). { rewrite Rmult_0_l, Rplus_0_r in Q. rewrite <- Q. field. lra. }
  split; [|split; [rewrite Q'; field; lra|exact Q']]. destruct P as [P|P]; [exact P|]. exfalso. rewrite <- P in Q'. assert (0 < cov * delta) by (apply Rmult_lt_0_compat; lra). lra.
Qed.
Print Assumptions C82_error_scale_refuted.

(** Claim: the errors are set for every variance.  For a small one the variables keep what they held, and a number that is no
    status is returned: zero if delta is smaller than the gradient. *)
Theorem C82_precise_refuted cov grad par delta pos0 neg0 : Rabs cov < 1 / 10 ^ 10 -> 0 <= delta < grad ->
  signalUncertainty_quad true cov grad par delta pos0 neg0 = Ok (0%Z, pos0, neg0).
Proof.
  intros Hc Hd. unfold signalUncertainty_quad. cbn [negb]. destruct (Rltb_spec (Rabs cov) (1 / 10 ^ 10)); [|lra]. destruct (Reqb_spec grad 0); [lra|].
  repeat f_equal. assert (0 <= delta / grad < 1). { split; [apply Rmult_le_pos; [lra|]; apply Rlt_le, Rinv_0_lt_compat; lra|]. apply (Rmult_lt_reg_r grad); [lra|]. unfold Rdiv. rewrite Rmult_assoc, Rinv_l by lra. lra. }
  rewrite Ztrunc_floor by lra. apply Zfloor_imp. cbn. lra.
Qed.
Print Assumptions C82_precise_refuted.

(** Claim: a scan uses the prior that the fit used.  Only the local one is used. *)
Theorem C82_scan_prior_refuted fit like c1 c2 fixed target reduced first last nnorm normSigma posErr negErr :
  c_has_test c1 = c_has_test c2 -> c_pars c1 = c_pars c2 -> getPrior c1 Local_Prior false = getPrior c2 Local_Prior false ->
  scanNormalization fit like c1 fixed target reduced first last nnorm normSigma posErr negErr = scanNormalization fit like c2 fixed target reduced first last nnorm normSigma posErr negErr.
Proof. intros H1 H2 H3. cbn in H3. unfold scanNormalization. now rewrite H1, H2, H3. Qed.
Print Assumptions C82_scan_prior_refuted.

(** Claim: a scan works with models that are not reduced.  Without other free sources it reads the reduced model, which is
    empty. *)
Theorem C82_scan_full_refuted fit like c x fixed target first last nnorm normSigma posErr negErr : c_has_test c = true -> c_pars c = [x] -> (1 <= nnorm)%nat -> (1 <= last)%nat ->
  scanNormalization fit like c fixed target false first last nnorm normSigma posErr negErr = UB.
Proof.
  intros Ht Hp Hn Hl. unfold scanNormalization. rewrite Ht, Hp. cbn [negb length vec_get nth_error Nat.sub obind Nat.ltb Nat.leb]. destruct nnorm as [|n]; [lia|]. cbn [scan_loop]. unfold fixed_temp.
  destruct (_ || _ || _)%bool; cbn [obind]; [reflexivity|]. cbn [length]. destruct (Nat.ltb_spec 0 last); [reflexivity|lia].
Qed.
Print Assumptions C82_scan_full_refuted.

(** Claim: the prior of a source is used whatever its normalisation.  It is dropped if the value is below 1e-15, as that of
    most sources is in absolute units, and if it is zero or negative. *)
Theorem C82_small_reference_refuted c r mean sigma : c_refs c = [r] -> r < 1 / 10 ^ 15 ->
  exists c1 c2 p, extract_init_priors_from_model c [Some (mean, sigma)] = Ok c1 /\ refactorPrior c1 [true] = Ok c2 /\ getPrior c2 Init_Prior false = Some p /\
  forall x, logLikelihood p [x] = Ok 0.
Proof.
  intros Hr Hs. unfold extract_init_priors_from_model. cbn [extractPriors map existsb orb]. rewrite Hr. cbn [length seq mfold vec_get nth_error obind fst snd]. unfold small_ref. destruct (Rltb_spec r (1 / 10 ^ 15)); [|lra]. cbn.
  do 3 eexists. split; [reflexivity|]. unfold refactorPrior, get_uncertainties. cbn. rewrite sqrt_0, Rabs_R0. destruct (Rltb_spec 0 0); [lra|]. cbn. split; [reflexivity|]. split; [reflexivity|].
  intros x. unfold logLikelihood. cbn. f_equal. lra.
Qed.
Print Assumptions C82_small_reference_refuted.

(** ** Cases *)
(** Three sources, the second fixed, priors on the first two. *)
Example C82_case : exists c1 c2 p,
  extract_init_priors_from_model (mk_cache [2; 4; 1] [1; 1] (zeros 2) false (None, None) (None, None) (None, None) (None, None)) [Some (6, 2); Some (1, 1); None] = Ok c1 /\
  refactorPrior c1 [true; false; true] = Ok c2 /\ getPrior c2 Init_Prior true = Some p /\ logLikelihood p [5; 7; 9] = Ok (-2).
Proof.
  assert (T : 1 / 10 ^ 15 <= 1) by lra.
  destruct (C82_init (mk_cache [2; 4; 1] [1; 1] (zeros 2) false (None, None) (None, None) (None, None) (None, None)) [Some (6, 2); Some (1, 1); None] [true; false; true]) as (c1 & c2 & E1 & E2 & _ & _ & _ & V); try reflexivity.
  - cbn. intros r [<-|[<-|[<-|[]]]]; lra.
  - cbn. intros m s [E|[E|[E|[]]]]; try discriminate; injection E as <- <-; lra.
  - specialize (V true [5; 7] 9 eq_refl). exists c1, c2. destruct (getPrior c2 Init_Prior true) as [p|].
    + exists p. split; [exact E1|]. split; [exact E2|]. split; [reflexivity|]. cbn [app] in V. rewrite V. f_equal. cbn. lra.
    + exfalso. cbn in V. lra.
Qed.

(** One parameter: 3 with variance 4. *)
Definition inv1 (m : mat) : option mat :=
  if (dim m =? 1)%nat then if Reqb (el m 0%nat 0%nat) 0 then None else Some (mk_mat 1 (fun _ _ => / el m 0%nat 0%nat)) else None.
Example C82_external_case : right_inv inv1 /\ covariance (mk_mat 1 (fun _ _ => 4)) /\ exists h c' p, inv1 (mk_mat 1 (fun _ _ => 4)) = Some h /\
  buildPriorsFromExternal inv1 (mk_cache [1] [3] (zeros 1) false (None, None) (None, None) (None, None) (None, None)) [3] (mk_mat 1 (fun _ _ => 4)) [true] false = Ok c' /\
  getPrior c' Local_Prior true = Some p /\ logLikelihood p [5; 8] = Ok (- (1 / 2)).
Proof.
  assert (R1 : right_inv inv1).
  { intros m h. unfold inv1. destruct (Nat.eqb_spec (dim m) 1) as [D|_]; [|discriminate]. destruct (Reqb_spec (el m 0%nat 0%nat) 0) as [|N]; [discriminate|]. intros E. injection E as <-. split; [|intros _ i j _ _; reflexivity].
    split; [now rewrite D|]. rewrite D. intros [|i] [|j] Hi Hj; try lia. cbn. field. exact N. }
  assert (Cv : covariance (mk_mat 1 (fun _ _ => 4))).
  { split; [intros i j _ _; reflexivity|]. intros d. cbn. assert (0 <= d 0%nat * d 0%nat) by (apply Rle_0_sqr). lra. }
  split; [exact R1|]. split; [exact Cv|].
  assert (Ei : inv1 (mk_mat 1 (fun _ _ => 4)) = Some (mk_mat 1 (fun _ _ => / 4))) by (unfold inv1; cbn; destruct (Reqb_spec 4 0); [lra|reflexivity]).
  destruct (C82_external inv1 (mk_cache [1] [3] (zeros 1) false (None, None) (None, None) (None, None) (None, None)) [3] _ _ false R1 Cv eq_refl Ei ltac:(discriminate)) as (c' & E & _ & _ & _ & _ & V).
  destruct (V true) as (p & Ep & Vp). destruct (Vp [5] 8 eq_refl) as (l & El & Hl & _). eexists. exists c', p. split; [exact Ei|]. split; [exact E|]. split; [exact Ep|]. cbn [app] in El. rewrite El, Hl. f_equal. cbn. lra.
Qed.

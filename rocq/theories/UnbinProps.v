(** Properties C25, C26, C29, C50, C51 and C52: the unbinned likelihood. *)
From Coq Require Import Reals Lra Sorted.
From Verif Require Import Base SMap AccumModel AccumProofs BinnedProofs CountsProps UnbinModel UnbinSpec UnbinProofs UnbinRuns UnbinHist UnbinCareful UnbinBest UnbinGrad.
Local Open Scope nat_scope.

(** ** C25: the model sum of one event *)
(** After any calls, the model sum is the sum of the latest contributions of the sources
    registered then, each counted once. *)
Theorem C25_model_sum : forall l,
  ev_sum (fold_left ev_apply l ev_zero) = Rsum (map snd (registered l)) /\
  ev_flux (fold_left ev_apply l ev_zero) = registered l /\
  NoDup (map fst (registered l)) /\ forall n c, In (n, c) (registered l) <-> latest n (rev l) = Some c.
Proof.
  intros l. destruct (events_ok l) as [[A B] C]. simpl in A, B, C. rewrite <- C. split; [exact B|]. split; [reflexivity|]. split.
  - now apply sorted_nodup.
  - intros n c. rewrite <- latest_ok, C. split; [|apply mfind_in]. intros I. apply mfind_In; auto. apply registered_sorted.
Qed.
Print Assumptions C25_model_sum.
Example C25_case : ev_sum (fold_left ev_apply [EUpdate 4 2; EUpdate 7 5; EDelete 9; EUpdate 4 3; EDelete 7; EUpdate 7 1]%R ev_zero) = 4%R.
Proof. rewrite (proj1 (C25_model_sum _)). unfold Rsum. simpl. lra. Qed.

(** ** C29: the cache of responses *)
(** After any calls, a read gives what was last stored for that event and source, or the default;
    an event that does not exist throws; all the values of a source have one entry per event. *)
Theorem C29_reads : forall (T : Type) (dflt : T) k0 l i n,
  snd (esc_read dflt (fold_left (c_apply dflt) l (clearAndResize k0)) i n) =
    (if i <? events_now k0 (rev l) then Ok (stored dflt k0 i n (rev l)) else Throw) /\
  length (snd (getCachedEventValues dflt (fold_left (c_apply dflt) l (clearAndResize k0)) n)) = events_now k0 (rev l) /\
  forall j, nth j (snd (getCachedEventValues dflt (fold_left (c_apply dflt) l (clearAndResize k0)) n)) dflt = stored dflt k0 j n (rev l).
Proof.
  intros T dflt k0 l i n. destruct (history_ok dflt k0 l) as (G & N & V). simpl in G, N, V.
  destruct (read_ok dflt _ i n G) as (A & _). rewrite A, N, V. split; auto.
  unfold getCachedEventValues. pose proof (touch_ok dflt _ n G) as H. destruct (esc_touch dflt _ n) as [c v]. destruct H as (_ & _ & _ & D & _ & _ & W & _). simpl.
  split; [congruence|]. intros j. now rewrite W.
Qed.
Print Assumptions C29_reads.
(** A write ends well exactly for events that exist. *)
Theorem C29_writes : forall (T : Type) (dflt : T) k0 l i n x,
  snd (esc_write dflt (fold_left (c_apply dflt) l (clearAndResize k0)) i n x) = if i <? events_now k0 (rev l) then Ok tt else Throw.
Proof.
  intros T dflt k0 l i n x. destruct (history_ok dflt k0 l) as (G & N & V). simpl in G, N, V.
  destruct (write_ok dflt _ i n x G) as (A & _). now rewrite A, N.
Qed.
Print Assumptions C29_writes.
Example C29_case : map (fun jn => snd (esc_read 0%Z (fold_left (c_apply 0%Z) [CWrite 1 7 5; CWrite 0 8 6; CWrite 3 7 9; CDelete 8; CWrite 1 9 4; CWrite 1 7 2]%Z (clearAndResize 3)) (fst jn) (snd jn)))
  [(1, 7%Z); (0, 8%Z); (3, 7%Z); (0, 7%Z); (1, 9%Z)] = [Ok 2; Ok 0; Throw; Ok 0; Ok 4]%Z.
Proof. reflexivity. Qed.

(** ** C26: the value *)
(** A configuration used for the cases: the spectrum is its first parameter, responses and
    efficiencies are 1 except at position 7, where the response is 2; the predicted counts are
    the parameter, ten times it in restricted energies. *)
Definition exU := mk_up (fun _ p _ => nth 0 p 0%R) (fun _ _ i _ => if i =? 0 then 1%R else 0%R) (fun im _ => if (im =? 7)%Z then 2%R else 1%R) (fun _ _ => 1%R)
  (fun _ _ gr p => match gr with None => nth 0 p 0%R | Some _ => (10 * nth 0 p 0)%R end) (fun _ _ gr _ i => if i =? 0 then match gr with None => 1%R | Some _ => 10%R end else 0%R)
  (fun _ => 1%R) (fun _ => 50%R) (fun _ => None).
Definition exG k := mk_ucfg k 0%R 100%R true false.
Definition usr x (b : bool) := mk_us 0 3 [x] [b] None false.

(** After every history of calls that ends well, the value is the sum of the logarithms of the
    present densities at the selected events, minus the predicted counts of each source as they
    were when they were last refreshed. *)
Theorem C26_value_partial : forall ph g npar ops st,
  uc_catch g = false -> Forall (uordinary npar) ops -> urun ph g (uinit g) ops = Some st ->
  exists st', value ph g st = (st', Ok (spec_value ph g (spec_run ph g ops))).
Proof.
  intros ph g npar ops st Hc O H. destruct (init_ok ph g npar) as [K P]. destruct (run_ok ph g npar Hc ops _ _ _ O K P H) as [K' P'].
  destruct (value_ok ph g npar _ _ Hc K' P') as (st' & A & _). exists st'. exact A.
Qed.
Print Assumptions C26_value_partial.
(** Only the gradient can fail to end well. *)
Theorem C26_runs_partial : forall ph g npar ops, uc_catch g = false -> Forall (uordinary npar) ops -> ~ In UGradient ops -> exists st, urun ph g (uinit g) ops = Some st.
Proof. intros ph g npar ops Hc O N. destruct (init_ok ph g npar) as [K P]. eapply run_some; eauto. Qed.
Print Assumptions C26_runs_partial.
(** When the predicted counts of every source were refreshed at its present parameters and the present energies,
    the value is that of the present sources. *)
Theorem C26_refreshed_partial : forall ph g npar ops st,
  uc_catch g = false -> Forall (uordinary npar) ops -> urun ph g (uinit g) ops = Some st ->
  (forall n x, In (n, x) (p_src (spec_run ph g ops)) -> ss_at x = (us_par (ss_now x), p_eb (spec_run ph g ops)) /\ us_grid (ss_now x) = p_eb (spec_run ph g ops)) ->
  exists st', value ph g st = (st', Ok (fresh_value ph g (u_src st) (u_eb st))).
Proof.
  intros ph g npar ops st Hc O H F. destruct (init_ok ph g npar) as [K P]. destruct (run_ok ph g npar Hc ops _ _ _ O K P H) as [K' P'].
  destruct (value_ok ph g npar _ _ Hc K' P') as (st' & A & _). exists st'. rewrite A. f_equal. f_equal. rewrite (k_src _ _ _ _ _ K'), (k_eb _ _ _ _ _ K').
  fold (spec_run ph g ops) in *. unfold spec_value, fresh_value. destruct (excluded g (p_eb (spec_run ph g ops))); auto. f_equal. f_equal. unfold now. rewrite map_map. apply map_ext_in. intros [n x] I. simpl.
  destruct (F n x I) as [F1 F2]. rewrite F1, F2. destruct (uc_new g); reflexivity.
Qed.
Print Assumptions C26_refreshed_partial.
(** A client who adds, deletes, sets free parameters, synchronises, and who calls syncSrcParams
    after changing a source, always gets the log-likelihood of the present sources. *)
Theorem C26_careful_partial : forall ph g npar l,
  uc_catch g = false -> Forall (action_ok npar) l ->
  exists st st', urun ph g (uinit g) (flat_map calls l) = Some st /\ u_src st = sources_of l /\
    value ph g st = (st', Ok (fresh_value ph g (sources_of l) None)).
Proof.
  intros ph g npar l Hc O. destruct (careful_run ph g npar Hc l O) as (st & A & C). destruct (value_synced ph g npar Hc _ _ _ C) as (st' & B & _).
  exists st, st'. split; auto. split; auto. rewrite (k_src _ _ _ _ _ (c_core _ _ _ _ _ _ C)). apply C.
Qed.
Print Assumptions C26_careful_partial.
Definition ex_actions := [AAdd 1 (usr 1 true); AAdd 2 (usr 4 false); AValue; AChange 2 [6]%R [false]; AAdd 3 (usr 2 true); AFreeValues (fun n _ v => (v + IZR n)%R); AGradient; ADelete 3].
Example C26_case : Forall (action_ok (fun _ => 1)) ex_actions /\ sources_of ex_actions = [(1%Z, usr 2 true); (2%Z, usr 6 false)] /\
  fresh_value exU (exG 0) (sources_of ex_actions) None = (-8)%R.
Proof.
  assert (E : sources_of ex_actions = [(1%Z, usr 2 true); (2%Z, usr 6 false)]).
  { unfold sources_of, ex_actions, usr. simpl. unfold set_free_values, set_par. simpl. repeat (f_equal; try lra). }
  split; [repeat constructor|]. split; [exact E|]. rewrite E. unfold fresh_value, data_part, Rsum. simpl. lra.
Qed.

(** Changing a parameter of a source without free parameters and synchronising is not enough. *)
Ltac evU := match goal with |- ?L = _ => let v := eval cbv -[IZR Rplus Rmult Rminus Ropp Rltb Rleb ln exp worst] in L in transitivity v; [vm_cast_no_check (eq_refl v)|] end.
Theorem C26_fixed_change_refuted : exists ops st st', Forall (uordinary (fun _ => 1)) ops /\ In USync ops /\ urun exU (exG 0) (uinit (exG 0)) ops = Some st /\
  value exU (exG 0) st = (st', Ok (-1)%R) /\ fresh_value exU (exG 0) (u_src st) (u_eb st) = (-2)%R.
Proof.
  exists [UAdd 1 (usr 1 false); USetParam 1 [2%R] [false]; USync].
  assert (O : Forall (uordinary (fun _ => 1)) [UAdd 1 (usr 1 false); USetParam 1 [2%R] [false]; USync]) by (repeat constructor).
  destruct (C26_runs_partial exU (exG 0) (fun _ => 1) _ eq_refl O) as (st & H). { simpl. intuition discriminate. }
  destruct (C26_value_partial exU (exG 0) (fun _ => 1) _ st eq_refl O H) as (st' & V).
  exists st, st'. split; [exact O|]. split; [simpl; auto|]. split; [exact H|]. split.
  - rewrite V. f_equal. f_equal. unfold spec_value, spec_run, data_part, Rsum. simpl. lra.
  - destruct (init_ok exU (exG 0) (fun _ => 1)) as [K P]. destruct (run_ok exU (exG 0) (fun _ => 1) eq_refl _ _ _ _ O K P H) as [K' _]. rewrite (k_src _ _ _ _ _ K'), (k_eb _ _ _ _ _ K').
    unfold fresh_value, data_part, Rsum. simpl. lra.
Qed.
Print Assumptions C26_fixed_change_refuted.
(** Lifting the energy bounds does not bring back the predicted counts of the full range, even for
    free parameters synchronised afterwards. *)
Theorem C26_unset_bounds_refuted : exists ops st st', Forall (uordinary (fun _ => 1)) ops /\ In USync ops /\ urun exU (exG 0) (uinit (exG 0)) ops = Some st /\
  u_eb st = None /\ value exU (exG 0) st = (st', Ok (-10)%R) /\ fresh_value exU (exG 0) (u_src st) (u_eb st) = (-1)%R.
Proof.
  set (ops := [UAdd 1 (usr 1 true); USetEb 10 20; UUnsetEb; USync]). exists ops.
  assert (O : Forall (uordinary (fun _ => 1)) ops) by (repeat constructor).
  destruct (C26_runs_partial exU (exG 0) (fun _ => 1) _ eq_refl O) as (st & H). { simpl. intuition discriminate. }
  destruct (C26_value_partial exU (exG 0) (fun _ => 1) _ st eq_refl O H) as (st' & V).
  destruct (init_ok exU (exG 0) (fun _ => 1)) as [K P]. destruct (run_ok exU (exG 0) (fun _ => 1) eq_refl _ _ _ _ O K P H) as [K' _].
  exists st, st'. split; [exact O|]. split; [simpl; auto|]. split; [exact H|]. split; [exact (k_eb _ _ _ _ _ K')|]. split.
  - rewrite V. f_equal. f_equal. unfold spec_value, spec_run, data_part, Rsum. simpl. lra.
  - rewrite (k_src _ _ _ _ _ K'), (k_eb _ _ _ _ _ K'). unfold fresh_value, data_part, Rsum. simpl. lra.
Qed.
Print Assumptions C26_unset_bounds_refuted.
(** A source added while the energies are restricted counts with its full range. *)
Theorem C26_added_in_bounds_refuted : exists ops st st', Forall (uordinary (fun _ => 1)) ops /\ In USync ops /\ urun exU (exG 0) (uinit (exG 0)) ops = Some st /\
  u_eb st = Some (10, 20)%R /\ value exU (exG 0) st = (st', Ok (-1)%R) /\ fresh_value exU (exG 0) (u_src st) (u_eb st) = (-10)%R.
Proof.
  set (ops := [USetEb 10 20; UAdd 1 (usr 1 true); USync]). exists ops.
  assert (O : Forall (uordinary (fun _ => 1)) ops) by (repeat constructor).
  destruct (C26_runs_partial exU (exG 0) (fun _ => 1) _ eq_refl O) as (st & H). { simpl. intuition discriminate. }
  destruct (C26_value_partial exU (exG 0) (fun _ => 1) _ st eq_refl O H) as (st' & V).
  destruct (init_ok exU (exG 0) (fun _ => 1)) as [K P]. destruct (run_ok exU (exG 0) (fun _ => 1) eq_refl _ _ _ _ O K P H) as [K' _].
  assert (X : excluded (exG 0) (Some (10, 20)%R) = false).
  { unfold excluded, exG. simpl. destruct (Rleb_spec 100 10); [lra|]. destruct (Rleb_spec 20 0); [lra|]. reflexivity. }
  assert (Eb : p_eb (spec_run exU (exG 0) ops) = Some (10, 20)%R) by reflexivity.
  exists st, st'. split; [exact O|]. split; [simpl; auto|]. split; [exact H|]. split; [exact (k_eb _ _ _ _ _ K')|]. split.
  - rewrite V. f_equal. f_equal. unfold spec_value. rewrite Eb, X. unfold spec_run, data_part, Rsum. simpl. lra.
  - rewrite (k_src _ _ _ _ _ K'), (k_eb _ _ _ _ _ K'). fold (spec_run exU (exG 0) ops). rewrite Eb. unfold fresh_value. rewrite X. unfold data_part, Rsum. simpl. lra.
Qed.
Print Assumptions C26_added_in_bounds_refuted.
(** Moving a source leaves the response of its old position in the cache. *)
Theorem C26_moved_refuted : exists ops st st' v, urun exU (exG 1) (uinit (exG 1)) ops = Some st /\ In USync ops /\
  value exU (exG 1) st = (st', Ok v) /\ v <> fresh_value exU (exG 1) (u_src st) (u_eb st) /\ mfind 1 (u_src st) = Some (set_img (usr 1 true) 7).
Proof.
  exists [UAdd 1 (usr 1 true); UMove 1 7; USync]. eexists _, _, (ln 1 - 1)%R.
  split; [evU; reflexivity|]. split; [simpl; auto|]. split.
  - evU. assert (R1 : Rltb 0 (0 + 1 * 1 * 1)%R = true) by (apply Rltb_t; lra). rewrite R1. repeat match goal with |- context [(0 + ?x)%R] => rewrite (Rplus_0_l x) end.
    replace (ln (1 * 1 * 1) - 1)%R with (ln 1 - 1)%R by (f_equal; f_equal; ring). reflexivity.
  - split; [|reflexivity].
    unfold fresh_value. simpl. unfold data_part, log_density, total_density, density, Rsum. simpl.
    assert (R1 : Rltb 0 (1 * 2 * 1 + 0)%R = true) by (apply Rltb_t; lra). rewrite R1.
    replace (1 * 2 * 1 + 0)%R with 2%R by ring. rewrite ln_1. pose proof (ln_increasing 1 2 ltac:(lra) ltac:(lra)) as L. rewrite ln_1 in L. lra.
Qed.
Print Assumptions C26_moved_refuted.

(** When the model is checked for being positive, an evaluation that throws leaves what it had summed
    so far for the next evaluation to count again. *)
Definition exV := mk_up (fun _ p j => if j =? 0 then exp 1 else nth 0 p 0%R) (fun _ _ _ _ => 1%R) (fun _ _ => 1%R) (fun _ _ => 1%R)
  (fun _ _ _ p => nth 0 p 0%R) (fun _ _ _ _ _ => 1%R) (fun _ => 1%R) (fun _ => 50%R) (fun _ => None).
Definition exH := mk_ucfg 2 0%R 100%R true true.
Definition st_throw x acc ev := mk_ust [(1%Z, usr x true)] [1%Z] [(x, true)] [(1%Z, x)] (mk_esc 2 [(1%Z, [(true, 1); (true, 1)]%R)]) ev acc None worst [].
Definition ev_of (c : R) : uev := mk_uev (0 + c)%R [(1%Z, c)].
Lemma throw_add x : ustep exV exH (uinit exH) (UAdd 1 (usr x true)) = (st_throw x 0 [ev_of (exp 1 * 1 * 1); ev_of (x * 1 * 1)], Ok tt).
Proof. evU. reflexivity. Qed.
Lemma throw_first x acc a1 c1 e1 : exists a, logSourceModel exV exH (st_throw x acc [mk_uev a1 [(1%Z, c1)]; e1]) 0 = (st_throw x acc [mk_uev a [(1%Z, exp 1 * 1 * 1)%R]; e1], Ok (ln (0 + exp 1 * 1 * 1))).
Proof. pose proof (exp_pos 1). assert (T : Rltb 0 (0 + exp 1 * 1 * 1) = true) by (apply Rltb_t; lra). eexists. evU. rewrite T. reflexivity. Qed.
Lemma throw_second x acc e0 a1 c1 : exists a, logSourceModel exV exH (st_throw x acc [e0; mk_uev a1 [(1%Z, c1)]]) 1 =
  (st_throw x acc [e0; mk_uev a [(1%Z, x * 1 * 1)%R]], if Rltb 0 (0 + x * 1 * 1) then Ok (ln (0 + x * 1 * 1)) else Throw).
Proof. eexists. evU. destruct (Rltb 0 (0 + x * 1 * 1)); reflexivity. Qed.
Theorem C26_after_throw_refuted : exists ops st st' v, urun exV exH (uinit exH) ops = Some st /\
  u_src st = [(1%Z, usr 1 true)] /\ u_eb st = None /\
  value exV exH st = (st', Ok v) /\ v = (fresh_value exV exH (u_src st) None + 1)%R.
Proof.
  exists [UAdd 1 (usr (-1) true); UValue; USetFreeValues (fun _ _ _ => 1%R)].
  pose proof (exp_pos 1) as Ep.
  destruct (throw_first (-1) 0 (0 + exp 1 * 1 * 1) (exp 1 * 1 * 1) (ev_of (-1 * 1 * 1))) as (a & A). fold (ev_of (exp 1 * 1 * 1)) in A.
  destruct (throw_second (-1) (0 + ln (0 + exp 1 * 1 * 1)) (mk_uev a [(1%Z, exp 1 * 1 * 1)%R]) (0 + -1 * 1 * 1) (-1 * 1 * 1)) as (b & B).
  rewrite (Rltb_f 0 (0 + -1 * 1 * 1)) in B by lra.
  assert (V : ustep exV exH (st_throw (-1) 0 [ev_of (exp 1 * 1 * 1); ev_of (-1 * 1 * 1)]) UValue =
              (st_throw (-1) (0 + ln (0 + exp 1 * 1 * 1)) [mk_uev a [(1%Z, exp 1 * 1 * 1)%R]; mk_uev b [(1%Z, -1 * 1 * 1)%R]], Throw)).
  { unfold ustep, value. change (u_eb (st_throw _ _ _)) with (@None (R * R)). cbv iota. change (seq 0 (uc_nev exH)) with [0; 1]. cbn [data_sum]. change (selected exV (st_throw _ _ _) 0) with true. cbv iota. rewrite A. cbn [ubind].
    change (w_acc (st_throw (-1) 0 ?e) _) with (st_throw (-1) (0 + ln (0 + exp 1 * 1 * 1)) e). change (selected exV (st_throw _ _ _) 1) with true. cbv iota. change (ev_of (-1 * 1 * 1)) with (mk_uev (0 + -1 * 1 * 1) [(1%Z, -1 * 1 * 1)%R]). rewrite B. reflexivity. }
  set (evs := [mk_uev a [(1%Z, exp 1 * 1 * 1)%R]; mk_uev b [(1%Z, -1 * 1 * 1)%R]]) in *.
  assert (W : urun exV exH (uinit exH) [UAdd 1 (usr (-1) true); UValue; USetFreeValues (fun _ _ _ => 1%R)] = Some (st_throw 1 (0 + ln (0 + exp 1 * 1 * 1)) evs)).
  { cbn [urun]. rewrite throw_add. rewrite V. reflexivity. }
  destruct (throw_first 1 (0 + ln (0 + exp 1 * 1 * 1)) a (exp 1 * 1 * 1) (mk_uev b [(1%Z, -1 * 1 * 1)%R])) as (a2 & A2).
  destruct (throw_second 1 (0 + ln (0 + exp 1 * 1 * 1) + ln (0 + exp 1 * 1 * 1)) (mk_uev a2 [(1%Z, exp 1 * 1 * 1)%R]) b (-1 * 1 * 1)) as (b2 & B2).
  rewrite (Rltb_t 0 (0 + 1 * 1 * 1)) in B2 by lra.
  eexists _, _, _. split; [exact W|]. split; [reflexivity|]. split; [reflexivity|]. split.
  - unfold value. change (u_eb (st_throw _ _ _)) with (@None (R * R)). cbv iota. change (seq 0 (uc_nev exH)) with [0; 1]. cbn [data_sum]. change (selected exV (st_throw _ _ _) 0) with true. cbv iota. unfold evs. rewrite A2. cbn [ubind].
    change (w_acc (st_throw 1 (0 + ln (0 + exp 1 * 1 * 1)) ?e) _) with (st_throw 1 (0 + ln (0 + exp 1 * 1 * 1) + ln (0 + exp 1 * 1 * 1)) e). change (selected exV (st_throw _ _ _) 1) with true. cbv iota. rewrite B2. reflexivity.
  - unfold fresh_value. simpl. unfold data_part, log_density, total_density, density, Rsum. simpl.
    rewrite !Rltb_t by lra. replace (0 + exp 1 * 1 * 1)%R with (exp 1) by ring. replace (exp 1 * 1 * 1 + 0)%R with (exp 1) by ring. rewrite ln_exp.
    replace (1 * 1 * 1 + 0)%R with (0 + 1 * 1 * 1)%R by ring. lra.
Qed.
Print Assumptions C26_after_throw_refuted.

(** ** C52: what the events keep *)
(** After a careful client evaluates, each event holds the contribution of each source and their sum. *)
Theorem C52_event_sums_partial : forall ph g npar l,
  uc_catch g = false -> Forall (action_ok npar) l ->
  exists st, urun ph g (uinit g) (flat_map calls (l ++ [AValue])) = Some st /\
    forall j, j < uc_nev g -> exists e, nth_error (u_ev st) j = Some e /\ ev_sum e = total_density ph (sources_of l) j /\
      ev_flux e = map (fun ns => (fst ns, density ph (fst ns) (snd ns) j)) (sources_of l).
Proof.
  intros ph g npar l Hc O. destruct (careful_run ph g npar Hc l O) as (st & A & C). destruct (value_synced ph g npar Hc _ _ _ C) as (st' & B & C' & D).
  exists st'. split.
  - rewrite flat_map_app, urun_app, A. cbn [flat_map calls app urun ustep]. rewrite B. reflexivity.
  - intros j Hj. destruct (D j Hj) as [D1 D2]. exists (nth j (u_ev st') ev_zero). split; auto. apply nth_error_nth'.
    destruct (k_ev _ _ _ _ _ (c_core _ _ _ _ _ _ C')) as [L _]. now rewrite L.
Qed.
Print Assumptions C52_event_sums_partial.
Example C52_case : Forall (action_ok (fun _ => 1)) ex_actions /\ total_density exU (sources_of ex_actions) 0 = 8%R.
Proof. split; [repeat constructor|]. destruct C26_case as (_ & E & _). rewrite E. unfold total_density, density, Rsum. simpl. lra. Qed.
(** The contribution of a source without free parameters is not renewed by an evaluation. *)
Theorem C52_fixed_change_refuted : exists ops st, Forall (uordinary (fun _ => 1)) ops /\ urun exU (exG 1) (uinit (exG 1)) ops = Some st /\
  mfind 1 (u_src st) = Some (usr 2 false) /\ map ev_sum (u_ev st) <> [total_density exU (u_src st) 0].
Proof.
  exists [UAdd 1 (usr 1 false); USetParam 1 [2%R] [false]; UValue]. eexists. split; [repeat constructor|].
  assert (T : Rltb 0 (0 + 2 * 1 * 1) = true) by (apply Rltb_t; lra).
  split. { evU. rewrite T. match goal with |- ?L = _ => let v := eval cbv -[IZR Rplus Rmult Rminus Ropp Rltb Rleb ln exp worst] in L in change L with v end.
    match goal with |- context [if Rltb ?a ?b then _ else _] => destruct (Rltb_spec a b) as [Hl|Hl]; [reflexivity|exfalso] end.
    unfold worst in Hl. replace (0 + 2 * 1 * 1)%R with 2%R in Hl by ring.
    pose proof (ln_increasing 1 2 ltac:(lra) ltac:(lra)) as L. rewrite ln_1 in L. apply Hl. clear Hl.
    assert (P : (1 <= IZR (10 ^ 38))%R) by (apply IZR_le; vm_compute; discriminate). lra. }
  split; [reflexivity|]. unfold total_density, density, Rsum. simpl. intros H. injection H as H. lra.
Qed.
Print Assumptions C52_fixed_change_refuted.

(** ** C50: going back to the best fit *)
(** From the last time a source was added or deleted: if an evaluation gave more than -1e38,
    restoreBestFit sets every parameter to the values of an evaluation that gave the most, and the
    model then has that log-likelihood; when only free parameters were changed, value returns it. *)
Theorem C50_restore_partial : forall ph g npar l0 a seg,
  uc_catch g = false -> Forall (action_ok npar) (l0 ++ a :: seg) -> starts_record (sources_of l0) a -> Forall same_sources seg ->
  (exists v p, In (v, p) (seen ph g (sources_of (l0 ++ [a])) seg) /\ (worst < v)%R) ->
  exists st st' v p, urun ph g (uinit g) (flat_map calls (l0 ++ a :: seg)) = Some st /\ restoreBestFit ph g st = (st', Ok tt) /\
    In (v, p) (seen ph g (sources_of (l0 ++ [a])) seg) /\ (forall v' p', In (v', p') (seen ph g (sources_of (l0 ++ [a])) seg) -> (v' <= v)%R) /\
    all_values (u_src st') = p /\ fresh_value ph g (u_src st') None = v /\
    (Forall free_only seg -> snd (value ph g st') = Ok v).
Proof.
  intros ph g npar l0 a seg Hc O N Q (v0 & p0 & I0 & W0).
  assert (O1 : Forall (action_ok npar) (l0 ++ [a])) by (apply Forall_app in O as [O1 O2]; inversion O2; subst; apply Forall_app; auto).
  assert (O2 : Forall (action_ok npar) seg) by (apply Forall_app in O as [_ O2]; inversion O2; auto).
  destruct (careful_run ph g npar Hc l0 (proj1 (proj1 (Forall_app _ _ _) O1))) as (s0 & A0 & C0).
  destruct (careful_run ph g npar Hc _ O1) as (s1 & A1 & C1).
  assert (B1 : Binv [] (spec_run ph g (flat_map calls (l0 ++ [a])))).
  { left. split; [|intros ? ? []]. unfold spec_run. rewrite flat_map_app, fold_left_app. fold (spec_run ph g (flat_map calls l0)).
    assert (Fn : forall n, mfind n (p_src (spec_run ph g (flat_map calls l0))) = None <-> mfind n (sources_of l0) = None).
    { intros n. rewrite <- (c_now _ _ _ _ _ _ C0), mfind_now. destruct (mfind n (p_src _)); simpl; split; congruence. }
    destruct a as [n s|n|n p fr|f| | |]; try contradiction; cbn [flat_map calls app fold_left spec_step].
    - apply Fn in N. rewrite N. reflexivity.
    - simpl p_src. destruct (mfind n (p_src (spec_run ph g (flat_map calls l0)))); reflexivity. }
  destruct (actions_run ph g npar Hc seg _ _ _ O2 C1) as (st & A & _).
  destruct (best_run ph g npar Hc seg [] _ _ _ _ O2 Q C1 B1 A) as [C B]. simpl app in B.
  destruct B as [[B2 B3]|[B2 B3]]. { apply B3 in I0. lra. }
  set (S := fold_left (spec_step ph g) (flat_map calls seg) (spec_run ph g (flat_map calls (l0 ++ [a])))) in *.
  destruct (seen_shape ph g npar Hc seg _ _ _ _ _ O2 Q C1 B2) as (m' & M1 & M2 & M3 & M4).
  destruct (restore_run ph g npar _ m' _ _ C M3 M1) as (st' & R1 & R2 & R3).
  exists st, st', (p_best S), (p_bestpar S). split. { replace (l0 ++ a :: seg) with ((l0 ++ [a]) ++ seg) by (rewrite <- app_assoc; reflexivity). rewrite flat_map_app, urun_app, A1. exact A. }
  split; [exact R1|]. split; [exact B2|]. split; [exact B3|]. split. { rewrite M3. now apply upto_values. } split. { rewrite M2. now apply fresh_upto. }
  intros F. specialize (R3 (M4 F)). destruct (value_synced ph g npar Hc _ _ _ R3) as (st2 & V & _). rewrite V. simpl. f_equal.
  pose proof (k_src _ _ _ _ _ (c_core _ _ _ _ _ _ R3)) as Ks. rewrite (c_now _ _ _ _ _ _ R3) in Ks. rewrite <- Ks. rewrite M2. now apply fresh_upto.
Qed.
Print Assumptions C50_restore_partial.
Definition ex_seg := [AValue; AFreeValues (fun _ _ _ => 3%R); AValue; AFreeValues (fun _ _ _ => 1%R); AValue; AFreeValues (fun _ _ _ => 5%R)].
Example C50_case : Forall (action_ok (fun _ => 1)) ([] ++ AAdd 1 (usr 2 true) :: ex_seg) /\ starts_record (sources_of []) (AAdd 1 (usr 2 true)) /\ Forall same_sources ex_seg /\ Forall free_only ex_seg /\
  seen exU (exG 0) (sources_of ([] ++ [AAdd 1 (usr 2 true)])) ex_seg = [(-2, [2]); (-3, [3]); (-1, [1])]%R /\ (worst < -1)%R.
Proof.
  split; [repeat constructor|]. split; [reflexivity|]. split; [repeat constructor|]. split; [repeat constructor|]. split.
  - unfold seen, ex_seg, fresh_value, data_part, Rsum. simpl. unfold all_values. simpl. repeat (f_equal; try lra).
  - unfold worst. assert (P : (2 <= IZR (10 ^ 38))%R) by (apply IZR_le; vm_compute; discriminate). lra.
Qed.
(** The value found after going back is not the best one when a parameter of a source without free
    parameters was changed in between, even though every change was synchronised. *)
Ltac spec_of O H V K st st' := let K0 := fresh in let P := fresh in
  match type of O with Forall _ ?ops =>
  destruct (C26_runs_partial exU (exG 0) (fun _ => 1) _ eq_refl O) as (st & H); [simpl; intuition discriminate|];
  destruct (C26_value_partial exU (exG 0) (fun _ => 1) _ st eq_refl O H) as (st' & V);
  destruct (init_ok exU (exG 0) (fun _ => 1)) as [K0 P]; destruct (run_ok exU (exG 0) (fun _ => 1) eq_refl _ _ _ _ O K0 P H) as [K _] end.
Lemma worst_small (x : R) : (-1000 < x)%R -> (worst < x)%R.
Proof. intros H. unfold worst. assert (P : (1000 <= IZR (10 ^ 38))%R) by (apply IZR_le; vm_compute; discriminate). lra. Qed.
Theorem C50_fixed_change_refuted : exists acts st st', Forall (action_ok (fun _ => 1)) acts /\ urun exU (exG 0) (uinit (exG 0)) (flat_map calls acts ++ [URestore]) = Some st /\
  seen exU (exG 0) [] acts = [(-1, [1])]%R /\ u_src st = [(1%Z, usr 1 false)] /\ value exU (exG 0) st = (st', Ok (-2)%R).
Proof.
  set (acts := [AAdd 1 (usr 1 false); AValue; AChange 1 [2]%R [false]]). exists acts.
  assert (Oa : Forall (action_ok (fun _ => 1)) acts) by (repeat constructor).
  assert (O : Forall (uordinary (fun _ => 1)) (flat_map calls acts ++ [URestore])) by (repeat constructor).
  assert (Sp : spec_run exU (exG 0) (flat_map calls acts ++ [URestore]) = mk_sst [(1%Z, mk_ss (usr 1 false) ([2]%R, None))] [1]%R None (0 - (1 + 0))%R [1]%R).
  { unfold spec_run, acts. simpl. unfold spec_value, data_part, Rsum. simpl. rewrite Rltb_t by (apply worst_small; lra). reflexivity. }
  spec_of O H V K st st'. exists st, st'. split; [exact Oa|]. split; [exact H|]. split.
  { unfold acts, seen, fresh_value, data_part, Rsum, all_values. simpl. repeat (f_equal; try lra). }
  fold (spec_run exU (exG 0) (flat_map calls acts ++ [URestore])) in K. split.
  - rewrite (k_src _ _ _ _ _ K), Sp. reflexivity.
  - rewrite V, Sp. f_equal. f_equal. unfold spec_value, data_part, Rsum. simpl. lra.
Qed.
Print Assumptions C50_fixed_change_refuted.
(** Replacing a source by another with as many parameters gives the new source the values of the
    old one when there was no evaluation since. *)
Theorem C50_other_source_refuted : exists acts st, Forall (action_ok (fun _ => 1)) acts /\ urun exU (exG 0) (uinit (exG 0)) (flat_map calls acts ++ [URestore]) = Some st /\
  sources_of acts = [(2%Z, usr 9 true)] /\ u_src st = [(2%Z, usr 1 true)].
Proof.
  set (acts := [AAdd 1 (usr 1 true); AValue; ADelete 1; AAdd 2 (usr 9 true)]). exists acts.
  assert (Oa : Forall (action_ok (fun _ => 1)) acts) by (repeat constructor).
  assert (O : Forall (uordinary (fun _ => 1)) (flat_map calls acts ++ [URestore])) by (repeat constructor).
  assert (Sp : now (p_src (spec_run exU (exG 0) (flat_map calls acts ++ [URestore]))) = [(2%Z, usr 1 true)]).
  { unfold spec_run, acts. simpl. unfold spec_value, data_part, Rsum. simpl. rewrite Rltb_t by (apply worst_small; lra). reflexivity. }
  spec_of O H V K st st'. exists st. split; [exact Oa|]. split; [exact H|]. split; [reflexivity|].
  rewrite (k_src _ _ _ _ _ K). exact Sp.
Qed.
Print Assumptions C50_other_source_refuted.
(** Evaluations in different energy ranges are compared with each other: the parameters restored
    need not be the best ones of any range. *)
Theorem C50_bounds_refuted : exists ops st, Forall (uordinary (fun _ => 1)) ops /\ urun exU (exG 0) (uinit (exG 0)) (ops ++ [URestore]) = Some st /\
  ops = [UAdd 1 (usr 2 true); UValue; USetEb 10 20; USetFreeValues (fun _ _ _ => 1%R); UValue] /\
  (fresh_value exU (exG 0) [(1%Z, usr 2 true)] (Some (10, 20)) < fresh_value exU (exG 0) [(1%Z, usr 1 true)] (Some (10, 20)))%R /\
  all_values (u_src st) = [2]%R.
Proof.
  eexists. assert (O : Forall (uordinary (fun _ => 1)) ([UAdd 1 (usr 2 true); UValue; USetEb 10 20; USetFreeValues (fun _ _ _ => 1%R); UValue] ++ [URestore])) by (repeat constructor).
  assert (X : excluded (exG 0) (Some (10, 20)%R) = false).
  { unfold excluded, exG. simpl. destruct (Rleb_spec 100 10); [lra|]. destruct (Rleb_spec 20 0); [lra|]. reflexivity. }
  spec_of O H V K st st'. exists st. split; [|split; [exact H|]]. { apply Forall_app in O. apply O. }
  split; [reflexivity|]. split.
  - unfold fresh_value. rewrite X. unfold data_part, Rsum. simpl. lra.
  - rewrite (k_src _ _ _ _ _ K). simpl app. cbn [fold_left]. simpl (spec_step exU (exG 0) spec_init (UAdd 1 (usr 2 true))).
    assert (E1 : spec_step exU (exG 0) (spec_step exU (exG 0) spec_init (UAdd 1 (usr 2 true))) UValue = mk_sst [(1%Z, mk_ss (usr 2 true) ([2]%R, None))] [2]%R None (-2)%R [2]%R).
    { unfold spec_step at 1. simpl. unfold spec_value, data_part, Rsum. simpl. rewrite Rltb_t by (apply worst_small; lra). unfold with_best. simpl. f_equal. lra. }
    simpl (spec_step exU (exG 0) spec_init (UAdd 1 (usr 2 true))) in E1. rewrite E1. clear E1.
    set (S3 := mk_sst [(1%Z, mk_ss (mk_us 0 3 [1]%R [true] (Some (10, 20)%R) false) ([1]%R, Some (10, 20)%R))] [1]%R (Some (10, 20)%R) (-2)%R [2]%R).
    match goal with |- context [spec_step exU (exG 0) ?S UValue] => change S with S3 end.
    assert (E2 : spec_step exU (exG 0) S3 UValue = S3).
    { unfold spec_step. change (p_eb S3) with (Some (10, 20)%R). rewrite X. cbn [negb andb]. rewrite Rltb_f; [reflexivity|].
      unfold spec_value. change (p_eb S3) with (Some (10, 20)%R). rewrite X. unfold data_part, Rsum. simpl. lra. }
    rewrite E2. clear E2. reflexivity.
Qed.
Print Assumptions C50_bounds_refuted.

(** ** C51: the gradient *)
(** After a careful client's calls, the gradient has one entry per free parameter, and each is the derivative of the
    log-likelihood by that parameter, where the model is positive at all the events. *)
Theorem C51_gradient_partial : forall ph g npar l,
  uc_catch g = false -> smooth ph -> Forall (action_ok npar) l -> (forall j, j < uc_nev g -> (0 < total_density ph (sources_of l) j)%R) ->
  exists st st' d, urun ph g (uinit g) (flat_map calls l) = Some st /\ getFreeDerivs ph g st = (st', Ok d) /\
    length d = length (free_params (sources_of l)) /\
    forall k n i, nth_error (free_params (sources_of l)) k = Some (n, i) ->
      exists s, mfind n (sources_of l) = Some s /\ i < length (us_par s) /\ nth i (us_fr s) false = true /\
        derivable_pt_lim (fun x => fresh_value ph g (with_param (sources_of l) n i x) None) (nth i (us_par s) 0%R) (nth k d 0%R).
Proof.
  intros ph g npar l Hc Sm O Pos. destruct (careful_run ph g npar Hc l O) as (st & A & C). destruct (gradient_synced ph g npar Hc _ _ _ C) as (st' & d & B & _ & D & E).
  assert (So : sorted (sources_of l)) by (eapply CI_sorted; eauto).
  exists st, st', d. split; [exact A|]. split; [exact B|]. split.
  { rewrite D. unfold free_params, free_list, free_positions. clear. induction (sources_of l) as [|[n s] m IH]; simpl; auto. rewrite !app_length, !map_length. lia. }
  intros k n i H. destruct (free_params_list _ _ _ _ H) as (s & F1 & F2 & F3). exists s. assert (Fs : mfind n (sources_of l) = Some s) by now apply mfind_In.
  split; [exact Fs|]. split; [exact F3|]. split.
  - apply nth_error_In in F1. unfold free_list in F1. apply in_flat_map in F1 as ([n' s'] & _ & F1). apply in_map_iff in F1 as (i' & F1 & F4). injection F1 as -> -> ->. simpl in F4. apply filter_In in F4. apply F4.
  - rewrite (E k _ F1). apply gradient_derive; auto.
    rewrite <- (c_now _ _ _ _ _ _ C), mfind_now in Fs. destruct (mfind n (p_src _)) as [x|] eqn:Fx; [|discriminate]. injection Fs as <-. apply (c_at _ _ _ _ _ _ C n x Fx).
Qed.
Print Assumptions C51_gradient_partial.
Example C51_case : smooth exU /\ Forall (action_ok (fun _ => 1)) ex_actions /\ (forall j, (0 < total_density exU (sources_of ex_actions) j)%R) /\ free_params (sources_of ex_actions) = [(1%Z, 0)].
Proof.
  destruct C26_case as (A & E & _). split.
  - split.
    + intros f p [|i] j H; destruct p as [|a p]; simpl in H |- *; try lia. apply derivable_pt_lim_id. apply derivable_pt_lim_const.
    + intros f im gr p [|i] H; destruct p as [|a p]; simpl in H |- *; try lia.
      * destruct gr. pose proof (derivable_pt_lim_scal id 10 a 1 (derivable_pt_lim_id a)) as Q. rewrite Rmult_1_r in Q. exact Q. apply derivable_pt_lim_id.
      * destruct gr; apply derivable_pt_lim_const.
    + discriminate.
  - split; [exact A|]. rewrite E. split; [|reflexivity]. intros j. unfold total_density, density, Rsum. simpl. lra.
Qed.
(** Freeing a parameter through the source itself and asking for the gradient before
    synchronising writes past the end of the array of derivatives. *)
Theorem C51_unsynchronised_refuted : exists ops st, Forall (uordinary (fun _ => 1)) ops /\ urun exU (exG 1) (uinit (exG 1)) ops = Some st /\ snd (getFreeDerivs exU (exG 1) st) = UB.
Proof.
  exists [UAdd 1 (usr 1 false); UPoke 1 [1]%R [true]]. eexists. split; [repeat constructor|]. split; [evU; reflexivity|].
  assert (T : Rltb 0 (0 + 1 * 1 * 1) = true) by (apply Rltb_t; lra). evU. rewrite T. reflexivity.
Qed.
Print Assumptions C51_unsynchronised_refuted.

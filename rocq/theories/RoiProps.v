(** C61: the region-of-interest cuts. *)
From Coq Require Import Reals Lra Lia.
From Verif Require Import Base AccumModel AccumProofs LtModel RoiModel RoiSpec.
Local Open Scope R_scope.

Lemma range_accept_spec t c : Bool.reflect (between t c) (range_accept t c).
Proof. unfold range_accept, between. destruct (Rleb_spec (fst c) t), (Rleb_spec t (snd c)); simpl; constructor; lra. Qed.
Lemma any_gti t gs : forall b, fold_left (fun ok g => ok || gti_accept t g) gs b = b || existsb (range_accept t) (concat gs).
Proof. induction gs as [|g gs IH]; intros b; simpl; [now rewrite orb_false_r|]. rewrite IH, existsb_app. unfold gti_accept. now rewrite orb_assoc. Qed.
Lemma last_cut t cs : forall b, fold_left (fun (_ : bool) c => range_accept t c) cs b = match cs with [] => b | _ => range_accept t (last cs (0, 0)) end.
Proof.
  induction cs as [|c cs IH]; intros b; auto. cbn [fold_left]. rewrite IH. destruct cs; auto.
Qed.
(** What accept() says: the time ranges before the last one and, if there is a time range, the good
    time intervals have no effect. *)
Theorem C61_accept_value : forall s e, r_muzen s <> None ->
  exists b, accept s e = Ok b /\
   (b = true <-> (match r_tcuts s with [] => r_gtis s <> [] -> exists g, In g (concat (r_gtis s)) /\ between (re_time e) g
                                    | _ => between (re_time e) (last (r_tcuts s) (0, 0)) end) /\
                 r_emin s <= re_energy e <= r_emax s /\ re_sep e (fst (r_cone s)) <= snd (r_cone s) /\ forall mu, r_muzen s = Some mu -> mu <= re_muzen e).
Proof.
  intros s e M. unfold accept. destruct (r_muzen s) as [mu|]; [|congruence]. destruct (r_cone s) as [[ra dec] rad]. cbn [fst snd].
  eexists. split; [reflexivity|]. rewrite any_gti, last_cut. cbn [orb].
  set (T := match r_tcuts s with [] => _ | _ => _ end).
  assert (HT : T = true <-> match r_tcuts s with [] => r_gtis s <> [] -> exists g, In g (concat (r_gtis s)) /\ between (re_time e) g | _ => between (re_time e) (last (r_tcuts s) (0, 0)) end).
  { unfold T. destruct (r_tcuts s) as [|c cs].
    - destruct (r_gtis s) as [|g gs]. { simpl. split; auto. intros _ H. congruence. }
      cbn [length Nat.eqb]. rewrite existsb_exists. split.
      + intros (x & Hx & E) _. exists x. split; auto. destruct (range_accept_spec (re_time e) x); [auto|discriminate].
      + intros H. destruct (H ltac:(discriminate)) as (x & Hx & E). exists x. split; auto. destruct (range_accept_spec (re_time e) x); auto.
    - destruct (range_accept_spec (re_time e) (last (c :: cs) (0, 0))); split; auto; discriminate. }
  rewrite <- HT. destruct (Rltb_spec (re_muzen e) mu); destruct (Rltb_spec rad (re_sep e (ra, dec))); destruct (Rltb_spec (re_energy e) (r_emin s)); destruct (Rltb_spec (r_emax s) (re_energy e)); cbn [orb];
    (split; [intros H; first [discriminate|split; [exact H|]; split; [lra|]; split; [lra|]; intros m E; injection E as <-; lra]
            |intros (H1 & H2 & H3 & H4); specialize (H4 mu eq_refl); first [exact H1|exfalso; lra]]).
Qed.
Print Assumptions C61_accept_value.
(** accept() keeps the selected events, provided that the last time range lies in the others and in the good times. *)
Theorem C61_accept_partial : forall s e mu, r_muzen s = Some mu ->
  (r_tcuts s <> [] -> between (re_time e) (last (r_tcuts s) (0, 0)) ->
    (forall c, In c (r_tcuts s) -> between (re_time e) c) /\ (r_gtis s <> [] -> exists g, In g (concat (r_gtis s)) /\ between (re_time e) g)) ->
  exists b, accept s e = Ok b /\
    (b = true <-> selected (concat (r_gtis s)) (r_tcuts s) (match r_gtis s with [] => false | _ => true end) (r_emin s) (r_emax s) (r_cone s) mu e).
Proof.
  intros s e mu M H. destruct (C61_accept_value s e ltac:(congruence)) as (b & E & V). exists b. split; auto. rewrite V. unfold selected.
  assert (G : (match r_gtis s with [] => false | _ => true end = true -> exists g, In g (concat (r_gtis s)) /\ between (re_time e) g) <-> (r_gtis s <> [] -> exists g, In g (concat (r_gtis s)) /\ between (re_time e) g)).
  { destruct (r_gtis s); split; intros A B; try congruence; apply A; auto; discriminate. }
  rewrite G. assert (MU : (forall m, r_muzen s = Some m -> m <= re_muzen e) <-> mu <= re_muzen e). { rewrite M. split; [auto|]. intros A m B. injection B as <-. auto. }
  rewrite MU. destruct (r_tcuts s) as [|c cs].
  - split; [intros (A & B & C & D); split; [exact A|]; split; [intros x []|auto]|intros (A & A' & B & C & D); auto].
  - split.
    + intros (A & B & C & D). destruct (H ltac:(discriminate) A). auto.
    + intros (A & A' & B & C & D). split; [|auto]. apply A'. destruct (exists_last (l := c :: cs)) as (l' & a & ->); [discriminate|]. rewrite last_last. apply in_or_app. right. now left.
Qed.
Print Assumptions C61_accept_partial.
(** In general it does not: an event outside of the good times is kept if it is in the time range. *)
Definition bad_roi : roi := mk_roi None 100 1000 [] (0, 0, 10) (Some (-1)) None None [(0, 100)] [[(0, 10)]] 0 100.
Definition bad_event : revent := mk_rev 50 500 0 (fun _ => 1).
Theorem C61_accept_refuted : exists s e mu, r_muzen s = Some mu /\ accept s e = Ok true /\
  ~ selected (concat (r_gtis s)) (r_tcuts s) true (r_emin s) (r_emax s) (r_cone s) mu e.
Proof.
  exists bad_roi, bad_event, (-1). split; [reflexivity|]. split.
  - destruct (C61_accept_value bad_roi bad_event ltac:(discriminate)) as (b & E & V). rewrite E. f_equal. apply V. unfold between. simpl.
    repeat split; try lra. intros m H. injection H as <-. lra.
  - intros (A & _). destruct (A eq_refl) as (g & [<-|[]] & B). unfold between in B. simpl in B. lra.
Qed.
(** Before any cut was set or read, accept() looks at a number that was never given. *)
Theorem C61_accept_early_refuted : forall cone s e, roi_new cone = Ok s -> accept s e = UB.
Proof.
  intros cone s e H. unfold roi_new in H. destruct (make_energies 20 200000 100); try discriminate. cbn [obind] in H. injection H as <-. unfold accept. cbn [r_cone r_muzen]. destruct cone as [[? ?] ?]. reflexivity.
Qed.
(** ** Energies *)
Theorem C61_energies : forall emin emax nee, 0 < emin < emax -> (2 <= nee)%nat ->
  exists es, make_energies emin emax nee = Ok es /\ length es = nee /\ log_grid emin emax es.
Proof.
  intros a b n (A & B) N. unfold make_energies. destruct (Rleb_spec a 0); [lra|]. destruct (Nat.eqb_spec n 0); [lia|].
  set (es := map _ _). assert (L : length es = n) by (unfold es; now rewrite map_length, seq_length). rewrite vec_set_ok by lia. eexists. split; [reflexivity|]. rewrite upd_length. split; auto.
  set (st := ln (b / a) / (INR n - 1)) in es. assert (Nn : 1 < INR n) by (replace 1 with (INR 1) by reflexivity; apply lt_INR; lia).
  assert (R1 : 1 < b / a). { apply (Rmult_lt_reg_r a); [lra|]. replace (b / a * a) with b by (field; lra). lra. }
  assert (P : 0 < ln (b / a)). { pose proof (ln_increasing 1 (b / a) ltac:(lra) R1) as K. now rewrite ln_1 in K. }
  assert (Ps : 0 < st). { unfold st. apply Rmult_lt_0_compat; auto. apply Rinv_0_lt_compat. lra. }
  assert (E : forall i, (i < n)%nat -> nth i (upd es (n - 1) b) 0 = a * exp (st * INR i)).
  { intros i Hi. destruct (Nat.eq_dec i (n - 1)) as [->|K].
    - rewrite nth_upd_eq by lia. unfold st. rewrite minus_INR by lia. simpl (INR 1). replace (ln (b / a) / (INR n - 1) * (INR n - 1)) with (ln (b / a)) by (field; lra). rewrite exp_ln by lra. field. lra.
    - rewrite nth_upd_neq by lia. unfold es. rewrite (nth_indep _ 0 (a * exp (st * INR 0))) by (rewrite map_length, seq_length; lia).
      rewrite (map_nth (fun i => a * exp (st * INR i))). rewrite seq_nth by lia. reflexivity. }
  unfold log_grid. rewrite upd_length, L. split; [|split; [|split]].
  - rewrite E by lia. simpl. rewrite Rmult_0_r, exp_0. ring.
  - now rewrite nth_upd_eq by lia.
  - intros i j Hij. rewrite !E by lia. apply Rmult_lt_compat_l; auto. apply exp_increasing. apply Rmult_lt_compat_l; auto. apply lt_INR. lia.
  - intros i Hi. rewrite !E by lia. rewrite S_INR. replace (st * (INR i + 1)) with (st * INR i + st) by ring. rewrite exp_plus. unfold Rpower.
    replace (1 / INR (n - 1) * ln (b / a)) with st. { field. split; [apply Rgt_not_eq, exp_pos|lra]. }
    unfold st. rewrite minus_INR by lia. simpl (INR 1). field. lra.
Qed.
Print Assumptions C61_energies.
Theorem C61_energies_refused : forall emin emax nee, emin <= 0 -> make_energies emin emax nee = Throw.
Proof. intros a b n H. unfold make_energies. destruct (Rleb_spec a 0); [reflexivity|lra]. Qed.

Section Read.
  Variable gti_and : list interval -> list interval -> list interval.
  Variable gti_min gti_max : list interval -> R.
  Variable supercedes : R * R -> R * R -> bool.
  Notation read := (read_cuts gti_and gti_min gti_max supercedes).
  (** Reading the selections of a file with one energy range, one region, one GTI and any time ranges,
      into a new object: the object then holds these. *)
  Definition simple_file (emin emax ra dec rad : R) (g : list interval) (times : list interval) : list dss :=
    EnergyCut emin emax true :: ConeCut ra dec rad :: GtiCut g :: map (fun t => TimeCut (fst t) (snd t)) times.
  Lemma sort_times times : forall a b n s,
    mfold (sort_cut supercedes) (map (fun t : interval => TimeCut (fst t) (snd t)) times) ((a, b, n), s) =
    Ok ((a, b, (n + length times)%nat), mk_roi (r_cuts s) (r_emin s) (r_emax s) (r_energies s) (r_cone s) (r_muzen s) (r_ecut s) (r_ccut s) (r_tcuts s ++ times) (r_gtis s) (r_tmin s) (r_tmax s)).
  Proof.
    induction times as [|t times IH]; intros a b n s; cbn [map mfold]. { rewrite app_nil_r, Nat.add_0_r. destruct s; reflexivity. }
    cbn [sort_cut obind]. rewrite IH. cbn [r_cuts r_emin r_emax r_energies r_cone r_muzen r_ecut r_ccut r_tcuts r_gtis r_tmin r_tmax length].
    rewrite <- app_assoc. destruct t. cbn [fst snd app]. do 2 f_equal. f_equal. lia.
  Qed.
  Lemma sort_simple emin emax ra dec rad g times s : mfold (sort_cut supercedes) (simple_file emin emax ra dec rad g times) ((0%nat, 0%nat, 0%nat), s) =
    Ok ((1%nat, 1%nat, S (length times)), mk_roi (r_cuts s) (r_emin s) (r_emax s) (r_energies s) (r_cone s) (r_muzen s) (Some (emin, emax)) (Some (ra, dec, rad)) (r_tcuts s ++ times) (r_gtis s ++ [g]) (r_tmin s) (r_tmax s)).
  Proof. unfold simple_file. cbn [mfold sort_cut Nat.eqb orb andb negb obind]. rewrite sort_times. reflexivity. Qed.
  Lemma no_gti_in_times times : gti_cuts (map (fun t : interval => TimeCut (fst t) (snd t)) times) = [].
  Proof. unfold gti_cuts. induction times; simpl; auto. Qed.
  Lemma read_ok strict emin emax ra dec rad g times s : 0 < emin ->
    exists es, make_energies emin emax 100 = Ok es /\
    read strict (simple_file emin emax ra dec rad g times) s =
     (mk_roi (Some (simple_file emin emax ra dec rad g times)) emin emax es (ra, dec, rad) (Some (-1)) (Some (emin, emax)) (Some (ra, dec, rad)) (r_tcuts s ++ times) (r_gtis s ++ [g]) (gti_min g) (gti_max g), Ok tt).
  Proof.
    intros P. unfold read_cuts, sort_cuts. set (file := simple_file emin emax ra dec rad g times).
    assert (M : exists es, make_energies emin emax 100 = Ok es). { unfold make_energies. destruct (Rleb_spec emin 0); [lra|]. cbn [Nat.eqb]. eexists. apply vec_set_ok. rewrite map_length, seq_length. lia. }
    destruct M as (es & M). exists es. split; auto.
    unfold file at 1. rewrite sort_simple. fold file. cbn [obind r_cuts r_emin r_emax r_energies r_cone r_muzen r_ecut r_ccut r_tcuts r_gtis r_tmin r_tmax].
    cbn [Nat.eqb negb orb Nat.add]. rewrite andb_false_r. unfold set_roi_data. cbn [r_ccut r_ecut].
    assert (G : gti_cuts file = [g]). { unfold file, simple_file, gti_cuts. cbn [map concat app]. f_equal. apply no_gti_in_times. }
    rewrite G. cbn [time_limits fold_left]. unfold set_cuts. rewrite M. cbn [r_cuts r_ecut r_ccut r_tcuts r_gtis]. reflexivity.
  Qed.
  Theorem C61_read : forall strict emin emax ra dec rad g times cone s0, 0 < emin -> roi_new cone = Ok s0 ->
    exists s, read strict (simple_file emin emax ra dec rad g times) s0 = (s, Ok tt) /\
      get_gtis s = g /\ get_time_cuts s = times /\ r_emin s = emin /\ r_emax s = emax /\ r_cone s = (ra, dec, rad) /\
      r_tmin s = gti_min g /\ r_tmax s = gti_max g /\ make_energies emin emax 100 = Ok (r_energies s).
  Proof.
    intros strict emin emax ra dec rad g times cone s0 P N. destruct (read_ok strict emin emax ra dec rad g times s0 P) as (es & M & E). eexists. split; [exact E|].
    unfold roi_new in N. destruct (make_energies 20 200000 100); try discriminate. cbn [obind] in N. injection N as <-. simpl. repeat split; auto.
  Qed.
  (** Reading a second file adds to what was there: the good times stay those of the first file, the time ranges
      of both have a say. *)
  Theorem C61_read_again_refuted : forall emin emax ra dec rad g g' times times' cone s0 s1, 0 < emin -> roi_new cone = Ok s0 ->
    read true (simple_file emin emax ra dec rad g times) s0 = (s1, Ok tt) ->
    exists s2, read true (simple_file emin emax ra dec rad g' times') s1 = (s2, Ok tt) /\ get_gtis s2 = g /\ get_time_cuts s2 = times ++ times' /\ r_tmin s2 = gti_min g'.
  Proof.
    intros emin emax ra dec rad g g' times times' cone s0 s1 P N H.
    destruct (read_ok true emin emax ra dec rad g times s0 P) as (es & M & E). rewrite E in H. injection H as <-.
    destruct (read_ok true emin emax ra dec rad g' times' (mk_roi (Some (simple_file emin emax ra dec rad g times)) emin emax es (ra, dec, rad) (Some (-1)) (Some (emin, emax)) (Some (ra, dec, rad)) (r_tcuts s0 ++ times) (r_gtis s0 ++ [g]) (gti_min g) (gti_max g)) P) as (es' & _ & E').
    eexists. split; [exact E'|]. unfold roi_new in N. destruct (make_energies 20 200000 100); try discriminate. cbn [obind] in N. injection N as <-. simpl. auto.
  Qed.
  (** The time limits: the earliest time of all GTIs is right, the latest one only if there is a single GTI cut. *)
  Theorem C61_tmin : forall gs lo hi, time_limits gti_min gti_max gs = Ok (lo, hi) -> (forall g, In g gs -> lo <= gti_min g) /\ exists g, In g gs /\ lo = gti_min g.
  Proof.
    intros [|g0 gs] lo hi H; [discriminate|]. unfold time_limits in H. injection H as H.
    assert (K : forall l init, (fst (fold_left (fun lim g => (if Rltb (gti_min g) (fst lim) then gti_min g else fst lim, if Rltb (gti_max g) (snd lim) then gti_max g else snd lim)) l init) <= fst init /\
       forall g, In g l -> fst (fold_left (fun lim g => (if Rltb (gti_min g) (fst lim) then gti_min g else fst lim, if Rltb (gti_max g) (snd lim) then gti_max g else snd lim)) l init) <= gti_min g) /\
       (fst (fold_left (fun lim g => (if Rltb (gti_min g) (fst lim) then gti_min g else fst lim, if Rltb (gti_max g) (snd lim) then gti_max g else snd lim)) l init) = fst init \/
        exists g, In g l /\ fst (fold_left (fun lim g => (if Rltb (gti_min g) (fst lim) then gti_min g else fst lim, if Rltb (gti_max g) (snd lim) then gti_max g else snd lim)) l init) = gti_min g)).
    { induction l as [|g l IH]; intros init. { simpl. split; [split; [lra|intros ? []]|now left]. }
      cbn [fold_left]. match goal with |- context [fold_left ?f l ?i] => destruct (IH i) as ((A & B) & C); set (r := fst (fold_left f l i)) in * end. cbn [fst] in *.
      assert (D : r <= fst init /\ r <= gti_min g) by (destruct (Rltb_spec (gti_min g) (fst init)); lra). split.
      - split; [lra|]. intros x [<-|Hx]; [lra|auto].
      - destruct C as [C|(x & Hx & C)]; [|right; exists x; split; [now right|auto]]. destruct (Rltb_spec (gti_min g) (fst init)); [right; exists g; split; [now left|auto]|now left]. }
    destruct (K gs (gti_min g0, gti_max g0)) as ((A & B) & C). rewrite H in *. cbn [fst] in *. split.
    - intros g [<-|Hg]; auto.
    - destruct C as [C|(x & Hx & C)]; [exists g0; split; [now left|auto]|exists x; split; [now right|auto]].
  Qed.
  (** Cuts that are set again: the good times can only shrink, whatever the new limits. *)
  Theorem C61_set_again_refuted : forall emin emax tmin tmax tmin' tmax' cone s0, 0 < emin -> roi_new cone = Ok s0 ->
    let '(s1, o1) := set_cuts gti_and 0 0 180 emin emax tmin tmax (-1) true s0 in
    let '(s2, o2) := set_cuts gti_and 0 0 180 emin emax tmin' tmax' (-1) true s1 in
    o1 = Ok tt /\ o2 = Ok tt /\ get_gtis s1 = [(tmin, tmax)] /\ get_time_cuts s2 = [(tmin', tmax')] /\ get_gtis s2 = gti_and [(tmin', tmax')] [(tmin, tmax)].
  Proof.
    intros emin emax tmin tmax tmin' tmax' cone s0 P N. unfold roi_new in N. destruct (make_energies 20 200000 100) as [es| |]; try discriminate. cbn [obind] in N. injection N as <-.
    assert (M : exists es, make_energies emin emax 100 = Ok es). { unfold make_energies. destruct (Rleb_spec emin 0); [lra|]. cbn [Nat.eqb]. eexists. apply vec_set_ok. rewrite map_length, seq_length. lia. }
    destruct M as (es' & M). unfold set_cuts. rewrite M. simpl. auto.
  Qed.
End Read.
Print Assumptions C61_read.
Print Assumptions C61_tmin.
(** With two GTI cuts the latest time is too early. *)
Theorem C61_tmax_refuted : let gmin := fun g : list interval => fst (hd (0, 0) g) in let gmax := fun g : list interval => snd (last g (0, 0)) in
  exists gs lo hi g, time_limits gmin gmax gs = Ok (lo, hi) /\ In g gs /\ hi < gmax g.
Proof.
  intros gmin gmax. exists [[(0, 10)]; [(20, 30)]], 0, 10, [(20, 30)]. split; [|split; [simpl; auto|unfold gmax; simpl; lra]].
  unfold time_limits, gmin, gmax. cbn [fold_left hd last fst snd]. destruct (Rltb_spec 20 0); [lra|]. destruct (Rltb_spec 30 10); [lra|]. reflexivity.
Qed.
(** Whether a file with two energy ranges, one inside the other, is refused depends on their order. *)
Definition tighter (a b : R * R) : bool := Rleb (fst b) (fst a) && Rleb (snd a) (snd b).
Theorem C61_strict_refuted : exists file file' s, (forall c, In c file <-> In c file') /\ length file = length file' /\
  sort_cuts tighter true s file = Throw /\ exists s', sort_cuts tighter true s file' = Ok s'.
Proof.
  exists [EnergyCut 10 1000 true; EnergyCut 100 500 true; ConeCut 0 0 10; GtiCut [(0, 10)]],
         [EnergyCut 100 500 true; EnergyCut 10 1000 true; ConeCut 0 0 10; GtiCut [(0, 10)]], bad_roi.
  split. { intros c. simpl. tauto. } split; auto. unfold sort_cuts. cbn [mfold]. unfold sort_cut. cbn [Nat.eqb orb andb negb obind r_ecut]. unfold tighter. cbn [fst snd].
  destruct (Rleb_spec 10 100); [|lra]. destruct (Rleb_spec 500 1000); [|lra]. destruct (Rleb_spec 100 10); [lra|]. cbn [andb orb Nat.eqb obind negb]. split; [reflexivity|]. eexists. reflexivity.
Qed.
Example C61_case : 0 < 100 < 1000 /\ (forall gand gmin gmax, exists s0 s, roi_new (0, 0, 0) = Ok s0 /\
  read_cuts gand gmin gmax tighter true (simple_file 100 1000 83 22 10 [(0, 10); (20, 30)] [(5, 25)]) s0 = (s, Ok tt) /\ get_gtis s = [(0, 10); (20, 30)]) /\
  (exists es, make_energies 100 1000 10 = Ok es).
Proof.
  split; [lra|]. split.
  - intros gand gmin gmax. destruct (C61_energies 20 200000 100 ltac:(lra) ltac:(lia)) as (es & M & _).
    assert (N : exists s0, roi_new (0, 0, 0) = Ok s0). { unfold roi_new. rewrite M. eexists. reflexivity. }
    destruct N as (s0 & N). destruct (C61_read gand gmin gmax tighter true 100 1000 83 22 10 [(0, 10); (20, 30)] [(5, 25)] (0, 0, 0) s0 ltac:(lra) N) as (s & E & G & _). exists s0, s. auto.
  - destruct (C61_energies 100 1000 10 ltac:(lra) ltac:(lia)) as (es & M & _). eauto.
Qed.

(** C70: the shape of an extended source. *)
From Coq Require Import Reals List Lia Lra Bool.
From Coquelicot Require Import Coquelicot.
From Verif Require Import Base AccumModel AccumProofs EvtModel EvtProofs TrapModel ShapeModel ShapeSpec ShapeProofs.
Import ListNotations.
Local Open Scope R_scope.
Local Open Scope list_scope.

(** ** Tables *)

(** A profile is the straight line between two neighbouring points of its table;
    the first line is continued before the table and the last one after it. *)
Theorem C70_line theta profile i t0 p0 t1 p1 x : rising theta -> neighbours theta profile i t0 p0 t1 p1 ->
  t0 <= x \/ i = 0%nat -> x < t1 \/ length theta = S (S i) -> valueAtOffset theta profile x = Ok (p0 + (p1 - p0) * (x - t0) / (t1 - t0)).
Proof. exact (value_rising theta profile i t0 p0 t1 p1 x). Qed.
Print Assumptions C70_line.

(** With at least two points it has a value everywhere. *)
Theorem C70_defined theta profile x : rising theta -> length profile = length theta -> (2 <= length theta)%nat ->
  exists i t0 p0 t1 p1, neighbours theta profile i t0 p0 t1 p1 /\ t0 < t1 /\ (t0 <= x \/ i = 0%nat) /\ (x < t1 \/ length theta = S (S i)) /\ valueAtOffset theta profile x = Ok (straight t0 p0 t1 p1 x).
Proof.
  intros H HL H2. destruct (some_interval theta x H H2) as (i & I & A & B). exists i, (nth i theta 0), (nth i profile 0), (nth (S i) theta 0), (nth (S i) profile 0).
  pose proof (nb_at theta profile i HL I) as N. split; [exact N|]. split; [apply rising_nth; auto; lia|]. split; [exact A|]. split; [exact B|]. exact (value_rising _ _ _ _ _ _ _ _ H N A B).
Qed.
Print Assumptions C70_defined.

(** At a point of the table it is the tabulated value. *)
Theorem C70_node theta profile k t p : rising theta -> length profile = length theta -> (2 <= length theta)%nat ->
  nth_error theta k = Some t -> nth_error profile k = Some p -> valueAtOffset theta profile t = Ok p.
Proof.
  intros H HL H2 T P. pose proof (nth_lt _ _ _ T) as LK. assert (ET : nth k theta 0 = t) by (now apply nth_error_nth). assert (EP : nth k profile 0 = p) by (now apply nth_error_nth).
  destruct (Nat.eq_dec (S k) (length theta)) as [E|E].
  - destruct k as [|k]; [lia|]. pose proof (rising_nth _ H k (S k) ltac:(lia) ltac:(lia)) as L.
    rewrite (value_rising _ _ _ _ _ _ _ t H (nb_at _ _ k HL ltac:(lia))) by (first [left; lra|right; lia]). f_equal. unfold straight. rewrite ET, EP. rewrite ET in L. field. lra.
  - pose proof (rising_nth _ H k (S k) ltac:(lia) ltac:(lia)) as L. rewrite (value_rising _ _ _ _ _ _ _ t H (nb_at _ _ k HL ltac:(lia))) by (left; lra). f_equal. unfold straight. rewrite ET, EP. rewrite ET in L. field. lra.
Qed.
Print Assumptions C70_node.

(** Inside the table it stays within the bounds of the tabulated values. *)
Theorem C70_profile_bounds theta profile x first last lo hi : rising theta -> length profile = length theta -> (2 <= length theta)%nat ->
  nth_error theta 0 = Some first -> nth_error theta (length theta - 1) = Some last -> first <= x <= last ->
  (forall p, In p profile -> lo <= p <= hi) -> exists v, valueAtOffset theta profile x = Ok v /\ lo <= v <= hi.
Proof.
  intros H HL H2 F L X B. destruct (some_interval theta x H H2) as (i & I & A & C). pose proof (nb_at theta profile i HL I) as N. eexists. split; [exact (value_rising _ _ _ _ _ _ _ _ H N A C)|].
  apply straight_between; [apply rising_nth; auto; lia| |apply B, nth_In; lia|apply B, nth_In; lia].
  apply nth_error_nth with (d := 0) in F. apply nth_error_nth with (d := 0) in L. split.
  - destruct A as [A|A]; [exact A|]. subst i. lra.
  - destruct C as [C|C]; [lra|]. replace (S i) with (length theta - 1)%nat by lia. lra.
Qed.
Print Assumptions C70_profile_bounds.

(** Where an abscissa is repeated inside the table, the profile jumps from the
    line before to the line after. *)
Theorem C70_jump theta profile i t0 p0 t1 p1 first x : not_falling theta -> neighbours theta profile i t0 p0 t1 p1 ->
  nth_error theta 0 = Some first -> t0 <= x < t1 -> first < x -> valueAtOffset theta profile x = Ok (straight t0 p0 t1 p1 x).
Proof. intros H N F X Y. apply nth_error_nth with (d := 0) in F. apply (value_inside _ _ _ _ _ _ _ _ H N X). lra. Qed.
Print Assumptions C70_jump.

(** At either end it has no value there: a quotient 0 / 0, or x / 0. *)
Theorem C70_step_refuted :
  (forall p0 p1 p2 x, x <= 0 -> valueAtOffset [0; 0; 1] [p0; p1; p2] x = UB) /\
  (forall p0 p1 p2 x, 1 <= x -> valueAtOffset [0; 1; 1] [p0; p1; p2] x = UB).
Proof.
  split; intros p0 p1 p2 x X.
  - rewrite (value_below _ _ 0 p0 0 p1) by (try (repeat split; reflexivity); cbn; lra). destruct (Reqb_spec (0 - 0) 0); [reflexivity|lra].
  - rewrite (value_beyond _ _ 1 1 p1 1 p2) by (try (repeat split; reflexivity); try reflexivity; lra). destruct (Reqb_spec (1 - 1) 0); [reflexivity|lra].
Qed.
Print Assumptions C70_step_refuted.

(** A profile that falls at its end is negative far beyond it. *)
Theorem C70_negative_refuted theta profile i t0 p0 t1 p1 x : neighbours theta profile i t0 p0 t1 p1 -> length theta = S (S i) -> t0 < t1 -> p1 < p0 ->
  t1 + p1 * (t1 - t0) / (p0 - p1) < x -> t1 <= x -> exists v, valueAtOffset theta profile x = Ok v /\ v < 0.
Proof.
  intros N HL T P X X1. rewrite (value_beyond _ _ _ _ _ _ _ _ N HL X1). destruct (Reqb_spec (t1 - t0) 0); [lra|]. eexists. split; [reflexivity|].
  unfold straight. apply Rmult_lt_reg_r with ((t1 - t0) / (p0 - p1)); [apply Rdiv_lt_0_compat; lra|]. rewrite Rmult_0_l.
  replace ((p0 + (p1 - p0) * (x - t0) / (t1 - t0)) * ((t1 - t0) / (p0 - p1))) with (t1 + p1 * (t1 - t0) / (p0 - p1) - x) by (field; lra). lra.
Qed.
Print Assumptions C70_negative_refuted.

(** A table of one line is accepted and then throws, or is out of bounds;
    one without lines is out of bounds. *)
Theorem C70_short_refuted : snd (readTemplateFile []) = Ok tt /\ (forall t p, snd (readTemplateFile [[t; p]]) = Ok tt) /\
  (forall x, valueAtOffset [] [] x = UB) /\ (forall t p x, valueAtOffset [t] [p] x = Throw).
Proof.
  split; [reflexivity|]. split; [reflexivity|]. split; [reflexivity|]. intros t p x. unfold valueAtOffset, back, front. cbn. destruct (Rleb_spec t x); [reflexivity|]. destruct (Rltb_spec t x); [lra|]. reflexivity.
Qed.
Print Assumptions C70_short_refuted.

(** A file is accepted just when every line has two numbers and the first never
    falls; then the two columns are the table, and otherwise it throws. *)
Theorem C70_template lines :
  (snd (readTemplateFile lines) = Ok tt <-> (forall l, In l lines -> (2 <= length l)%nat) /\ not_falling (map (fun l => nth 0 l 0) lines)) /\
  (snd (readTemplateFile lines) = Ok tt -> fst (readTemplateFile lines) = (map (fun l => nth 0 l 0) lines, map (fun l => nth 1 l 0) lines)) /\
  (snd (readTemplateFile lines) = Ok tt \/ snd (readTemplateFile lines) = Throw).
Proof.
  assert (NF : not_falling []) by (intros [|i] a b; discriminate). destruct (read_ok lines [] [] eq_refl NF) as (A & B & C). cbn [app] in *.
  assert (E : map (hd 0) lines = map (fun l => nth 0 l 0) lines) by (apply map_ext; intros [|]; reflexivity). rewrite E in *. rewrite Forall_forall in A. auto.
Qed.
Print Assumptions C70_template.

(** The reader's message asks for rising abscissae, but equal ones pass. *)
Theorem C70_template_refuted : exists lines theta profile, readTemplateFile lines = ((theta, profile), Ok tt) /\ valueAtOffset theta profile 1 = UB.
Proof.
  exists [[0; 3]; [1; 2]; [1; 0]], [0; 1; 1], [3; 2; 0]. split.
  - unfold readTemplateFile. cbn [read_lines app last]. destruct (Rltb_spec 1 0); [lra|]. destruct (Rltb_spec 1 1); [lra|]. reflexivity.
  - apply (proj2 C70_step_refuted). lra.
Qed.
Print Assumptions C70_template_refuted.

(** The integral over the sky is that of the table's trapezoids in
    2 pi sin(theta) profile. *)
Theorem C70_angular theta profile : length profile = length theta -> (2 <= length theta)%nat ->
  angularIntegral theta profile = Ok (area (map (fun '(t, p) => (radians t, 2 * PI * sin (radians t) * p)) (combine theta profile))).
Proof. exact (angular_ok theta profile). Qed.
Print Assumptions C70_angular.

(** It leaves out what lies before the table although the profile has values
    there: a profile that is one everywhere. *)
Theorem C70_angular_refuted : (forall x, valueAtOffset [90; 180] [1; 1] x = Ok 1) /\ angularIntegral [90; 180] [1; 1] = Ok (PI * PI / 2) /\
  is_RInt (fun t => 2 * PI * sin t * 1) 0 PI (4 * PI) /\ PI * PI / 2 < 4 * PI.
Proof.
  pose proof PI_RGT_0 as PP. pose proof PI_4 as P4. split; [|split; [|split]].
  - intros x. assert (Hrise : rising [90; 180]). { intros [|[|i]] a b A B; try discriminate. injection A as <-. injection B as <-. lra. all: destruct i; discriminate. }
    rewrite (value_rising _ _ 0 90 1 180 1 x Hrise); [|repeat split; reflexivity|now right|now right]. f_equal. unfold straight. field.
  - rewrite angular_ok by (simpl; lia). f_equal. cbn [combine map area fst snd]. unfold radians. replace (90 * PI / 180) with (PI / 2) by field. replace (180 * PI / 180) with PI by field. rewrite sin_PI2, sin_PI. field.
  - evar_last; [apply (is_RInt_derive (fun t => - (2 * PI) * cos t)); intros t _; [auto_derive; [exact I|ring]|]; apply (ex_derive_continuous (V := R_NormedModule)); auto_derive; exact I|].
    unfold minus, plus, opp. simpl. rewrite cos_PI, cos_0. ring.
  - nra.
Qed.
Print Assumptions C70_angular_refuted.

(** ** Profiles over time *)
Section Profiles.
  Context {Dir : Type}.
  Variable mkdir : R -> R -> Dir.
  Variable sep : Dir -> Dir -> R.

  Definition do_p (s : profile (Dir := Dir)) (c : pcmd Dir) : profile :=
    match c with
    | SetNorm x => p_set s Norm x
    | SetRA x => p_set s PRA x
    | SetDEC x => p_set s PDEC x
    | Centre ra dec => p_setCenter mkdir s ra dec
    | Evaluate d => fst (p_value mkdir sep s d)
    end.
  Definition run_p (l : list (pcmd Dir)) (s : profile) : profile := fold_left do_p l s.

  Lemma run_tables l s : p_theta (run_p l s) = p_theta s /\ p_profile (run_p l s) = p_profile s.
  Proof. revert s. induction l as [|c l IH]; intros s; [split; reflexivity|]. cbn [run_p fold_left]. destruct (IH (do_p s c)) as (A & B). unfold run_p in *. rewrite A, B. destruct c; split; reflexivity. Qed.
  Lemma run_params l s : p_ra (run_p l s) = last_ra l (p_ra s) /\ p_dec (run_p l s) = last_dec l (p_dec s).
  Proof. revert s. induction l as [|c l IH]; intros s; [split; reflexivity|]. cbn [run_p fold_left]. destruct (IH (do_p s c)) as (A & B). unfold run_p in *. rewrite A, B. destruct c; split; reflexivity. Qed.
  Lemma run_centre l s c : no_centre l -> p_center s = Some c -> p_center (run_p l s) = Some c.
  Proof.
    revert s. induction l as [|x l IH]; intros s H E; [exact E|]. cbn [run_p fold_left]. apply IH; [intros a b Q; exact (H a b (or_intror Q))|].
    destruct x; cbn; try exact E; [exfalso; exact (H _ _ (or_introl eq_refl))|]. now rewrite E.
  Qed.
  Lemma run_quiet l s : no_centre l -> no_evaluation l -> p_center s = None -> p_center (run_p l s) = None.
  Proof.
    revert s. induction l as [|x l IH]; intros s H G E; [exact E|]. cbn [run_p fold_left]. apply IH; [intros a b Q; exact (H a b (or_intror Q))|intros d Q; exact (G d (or_intror Q))|].
    destruct x; cbn; try exact E; exfalso; [exact (H _ _ (or_introl eq_refl))|exact (G _ (or_introl eq_refl))].
  Qed.

  (** The centre is the one last given to setCenter ... *)
  Theorem C70_centre_set theta prof before ra dec later dir : no_centre later ->
    snd (p_value mkdir sep (run_p (before ++ Centre ra dec :: later) (new_profile theta prof)) dir) = valueAtOffset theta prof (sep dir (mkdir ra dec) * 180 / PI).
  Proof.
    intros H. unfold p_value. cbn [snd]. destruct (run_tables (before ++ Centre ra dec :: later) (new_profile theta prof)) as (-> & ->). unfold run_p. rewrite fold_left_app. cbn [fold_left].
    rewrite (run_centre later _ (mkdir ra dec) H) by reflexivity. reflexivity.
  Qed.

  (** ... without which it is given by the parameters, until the first
      evaluation ... *)
  Theorem C70_centre_parameters theta prof cmds dir : no_centre cmds -> no_evaluation cmds ->
    snd (p_value mkdir sep (run_p cmds (new_profile theta prof)) dir) = valueAtOffset theta prof (sep dir (mkdir (last_ra cmds 0) (last_dec cmds 0)) * 180 / PI).
  Proof.
    intros H G. unfold p_value. cbn [snd]. destruct (run_tables cmds (new_profile theta prof)) as (-> & ->). rewrite (run_quiet cmds (new_profile theta prof) H G eq_refl). destruct (run_params cmds (new_profile theta prof)) as (-> & ->). reflexivity.
  Qed.

  (** ... and what the parameters were then afterwards. *)
  Theorem C70_centre_kept theta prof before d later dir : no_centre before -> no_evaluation before -> no_centre later ->
    snd (p_value mkdir sep (run_p (before ++ Evaluate d :: later) (new_profile theta prof)) dir) = valueAtOffset theta prof (sep dir (mkdir (last_ra before 0) (last_dec before 0)) * 180 / PI).
  Proof.
    intros H G L. unfold p_value. cbn [snd]. destruct (run_tables (before ++ Evaluate d :: later) (new_profile theta prof)) as (-> & ->). unfold run_p. rewrite fold_left_app. cbn [fold_left].
    rewrite (run_centre later _ (mkdir (last_ra before 0) (last_dec before 0)) L); [reflexivity|]. change (fold_left do_p before (new_profile theta prof)) with (run_p before (new_profile theta prof)). cbn [do_p p_value fst p_center].
    rewrite (run_quiet before (new_profile theta prof) H G eq_refl). destruct (run_params before (new_profile theta prof)) as (-> & ->). reflexivity.
  Qed.

  (** A copy behaves like the original, and so does the target of an assignment
      if the source of it has a centre or the target has none. *)
  Theorem C70_copy (s : profile) dir : snd (p_value mkdir sep (p_copy s) dir) = snd (p_value mkdir sep s dir) /\ p_getCenter (p_copy s) = p_getCenter s.
  Proof. unfold p_copy, p_value, p_getCenter. cbn. now destruct (p_center s). Qed.
  Theorem C70_assign (s rhs : profile) dir : (exists c, p_getCenter rhs = Ok c) \/ p_getCenter s = UB ->
    snd (p_value mkdir sep (p_assign s rhs) dir) = snd (p_value mkdir sep rhs dir) /\ p_getCenter (p_assign s rhs) = p_getCenter rhs.
  Proof. unfold p_assign, p_value, p_getCenter. cbn. intros [(c & E)|E]; destruct (p_center rhs); try discriminate; [auto|auto|]. destruct (p_center s); [discriminate|auto]. Qed.

  (** Before any evaluation, a new profile's centre is a null pointer. *)
  Theorem C70_getcenter_refuted theta prof cmds : no_centre cmds -> no_evaluation cmds -> p_getCenter (run_p cmds (new_profile theta prof)) = UB.
  Proof. intros H G. unfold p_getCenter. now rewrite (run_quiet cmds (new_profile theta prof) H G eq_refl). Qed.

  (** The normalisation has no effect on the value, but its derivative is the
      value divided by it. *)
  Theorem C70_norm_refuted (s : profile) dir x v : p_norm s <> 0 -> snd (p_value mkdir sep s dir) = Ok v ->
    snd (p_value mkdir sep (p_set s Norm x) dir) = Ok v /\ p_deriv mkdir sep s Norm dir = Ok (v / p_norm s).
  Proof. intros N E. split; [exact E|]. unfold p_deriv. rewrite E. cbn [obind]. destruct (Reqb_spec (p_norm s) 0); [contradiction|reflexivity]. Qed.
End Profiles.
Print Assumptions C70_centre_set.
Print Assumptions C70_centre_parameters.
Print Assumptions C70_centre_kept.
Print Assumptions C70_copy.
Print Assumptions C70_assign.
Print Assumptions C70_getcenter_refuted.
Print Assumptions C70_norm_refuted.

(** A line of directions, for the examples. *)
Definition on_line (a b : R * R) : R := Rabs (fst a - fst b) * PI / 180.

Lemma on_line_degrees a b : on_line a b * 180 / PI = Rabs (fst a - fst b).
Proof. pose proof PI_RGT_0. unfold on_line. field. lra. Qed.

(** A change of the parameters after an evaluation changes nothing. *)
Theorem C70_stale_refuted : exists theta prof (d : R * R),
  let s := fst (p_value pair on_line (new_profile theta prof) d) in
  snd (p_value pair on_line (p_set s PRA 10) d) = snd (p_value pair on_line s d) /\
  snd (p_value pair on_line (p_set (new_profile theta prof) PRA 10) d) <> snd (p_value pair on_line s d).
Proof.
  exists [0; 20], [2; 0], (0, 0). cbn zeta. split; [reflexivity|]. unfold p_value, p_set, new_profile. cbn [fst snd p_center p_ra p_dec p_theta p_profile]. rewrite !on_line_degrees. cbn [fst].
  assert (Hrise : rising [0; 20]). { intros [|[|i]] a b A B; try discriminate. injection A as <-. injection B as <-. lra. all: destruct i; discriminate. }
  assert (N : neighbours [0; 20] [2; 0] 0 0 2 20 0) by (repeat split; reflexivity).
  rewrite !(value_rising _ _ _ _ _ _ _ _ Hrise N) by (now right). intros E. injection E. unfold straight. rewrite !Rminus_0_r, Rabs_R0. rewrite Rabs_left by lra. lra.
Qed.
Print Assumptions C70_stale_refuted.

(** A profile that has been evaluated keeps its centre when it is assigned one
    that has not. *)
Theorem C70_assign_refuted : exists theta prof (d : R * R),
  let s := fst (p_value pair on_line (new_profile theta prof) d) in
  let rhs := p_set (new_profile theta prof) PRA 10 in
  snd (p_value pair on_line (p_assign s rhs) d) <> snd (p_value pair on_line rhs d).
Proof.
  exists [0; 20], [2; 0], (0, 0). cbn zeta. unfold p_assign, p_value, p_set, new_profile. cbn [fst snd p_center p_ra p_dec p_theta p_profile]. rewrite !on_line_degrees. cbn [fst].
  assert (Hrise : rising [0; 20]). { intros [|[|i]] a b A B; try discriminate. injection A as <-. injection B as <-. lra. all: destruct i; discriminate. }
  assert (N : neighbours [0; 20] [2; 0] 0 0 2 20 0) by (repeat split; reflexivity).
  rewrite !(value_rising _ _ _ _ _ _ _ _ Hrise N) by (now right). intros E. injection E. unfold straight. rewrite !Rminus_0_r, Rabs_R0. rewrite Rabs_left by lra. lra.
Qed.
Print Assumptions C70_assign_refuted.

(** ** Disks and Gaussians *)

(** A disk of radius r degrees is 1 / (pi r^2) per steradian inside and zero
    outside. *)
Theorem C70_disk delta r : 0 < r ->
  (delta < r -> shape Disk delta r = Ok (1 / (PI * (radians r * radians r)))) /\ (r <= delta -> shape Disk delta r = Ok 0).
Proof.
  intros H. pose proof PI_RGT_0. unfold shape, disk. destruct (Reqb_spec r 0); [lra|]. split; intros D.
  - destruct (Rltb_spec (delta / r) 1) as [_|Q]; [f_equal; unfold radians; field; lra|]. exfalso. apply Q. apply Rmult_lt_reg_r with r; [lra|]. unfold Rdiv. rewrite Rmult_assoc, Rinv_l by lra. lra.
  - destruct (Rltb_spec (delta / r) 1) as [Q|_]; [|f_equal; ring]. exfalso. apply (Rmult_lt_compat_r r) in Q; [|lra]. unfold Rdiv in Q. rewrite Rmult_assoc, Rinv_l in Q by lra. lra.
Qed.
Print Assumptions C70_disk.

Theorem C70_gauss delta s : 0 < s ->
  shape Gaussian delta s = Ok (1 / (2 * PI * (radians s * radians s)) * exp (- (delta / s * (delta / s)) / 2)).
Proof.
  intros H. pose proof PI_RGT_0. unfold shape, gauss. destruct (Reqb_spec s 0); [lra|]. cbn [obind]. f_equal. unfold radians. replace (- delta * delta / (2 * s * s)) with (- (delta / s * (delta / s)) / 2) by (field; lra). field. lra.
Qed.
Print Assumptions C70_gauss.

(** In a plane, the disk integrates to one, and the Gaussian to one less
    exp(-R^2 / 2 sigma^2) within a radius R. *)
Theorem C70_disk_normalised r : 0 < r -> exists v, shape Disk 0 r = Ok v /\ (forall t, 0 <= t < radians r -> shape Disk (t * 180 / PI) r = Ok v) /\
  is_RInt (fun t => 2 * PI * t * v) 0 (radians r) 1.
Proof.
  intros H. pose proof PI_RGT_0. destruct (C70_disk 0 r H) as (D & _). eexists. split; [apply D; lra|]. split.
  - intros t T. apply (proj1 (C70_disk (t * 180 / PI) r H)). unfold radians in T. apply Rmult_lt_reg_r with (PI / 180); [lra|]. replace (t * 180 / PI * (PI / 180)) with t by (field; lra). lra.
  - evar_last; [apply ring_integral|]. unfold radians. field. lra.
Qed.
Print Assumptions C70_disk_normalised.

Theorem C70_gauss_normalised s R0 : 0 < s -> exists f : R -> R, (forall t, shape Gaussian (t * 180 / PI) s = Ok (f t)) /\
  is_RInt (fun t => 2 * PI * t * f t) 0 R0 (1 - exp (- R0 * R0 / (2 * radians s * radians s))).
Proof.
  intros H. pose proof PI_RGT_0. assert (0 < radians s) by (unfold radians; apply Rdiv_lt_0_compat; [apply Rmult_lt_0_compat; lra|lra]).
  exists (fun t => 1 / (2 * PI * radians s * radians s) * exp (- t * t / (2 * radians s * radians s))). split.
  - intros t. rewrite (C70_gauss _ _ H). f_equal. f_equal; [f_equal; ring|]. f_equal. unfold radians. field. lra.
  - apply gauss_integral. lra.
Qed.
Print Assumptions C70_gauss_normalised.

(** A disk of radius zero is empty, and a Gaussian without width has no value. *)
Theorem C70_zero_size_refuted delta : shape Disk delta 0 = Ok 0 /\ shape Gaussian delta 0 = UB.
Proof. unfold shape, disk, gauss. destruct (Reqb_spec 0 0); [|lra]. split; [f_equal; ring|reflexivity]. Qed.
Print Assumptions C70_zero_size_refuted.

Section Functions.
  Context {Dir : Type}.
  Variable mkdir : R -> R -> Dir.
  Variable sep : Dir -> Dir -> R.

  Definition do_s (s : spatial (Dir := Dir)) (c : scmd) : spatial :=
    match c with
    | Set3 0 x => s_setParam mkdir s SRA x
    | Set3 1 x => s_setParam mkdir s SDEC x
    | Set3 _ x => s_setParam mkdir s SSize x
    | ReadAll a b c => s_read mkdir s a b c
    | Vector a b c => s_reread s a b c
    | Move a b => s_setCenter mkdir s a b
    end.
  Definition run_s (l : list scmd) (s : spatial) : spatial := fold_left do_s l s.
  Definition params (s : spatial (Dir := Dir)) : R * R * R := (s_ra s, s_dec s, s_par s).

  Lemma do_params s c : params (do_s s c) = after c (params s) /\ s_kind (do_s s c) = s_kind s.
  Proof. destruct c as [[|[|n]] x|a b c|a b c|a b]; split; reflexivity. Qed.
  Lemma run_s_params l s : params (run_s l s) = after_all l (params s) /\ s_kind (run_s l s) = s_kind s.
  Proof. revert s. induction l as [|c l IH]; intros s; [split; reflexivity|]. cbn [run_s fold_left after_all]. destruct (IH (do_s s c)) as (A & B). unfold run_s, after_all in *. rewrite A, B. destruct (do_params s c) as (-> & ->). split; reflexivity. Qed.
  Lemma keeps_sync s c : keeps c -> s_dir (do_s s c) = mkdir (s_ra (do_s s c)) (s_dec (do_s s c)) /\ s_size (do_s s c) = s_par (do_s s c).
  Proof. destruct c as [[|[|n]] x|a b c|a b c|a b]; cbn; try contradiction; split; reflexivity. Qed.

  (** Whatever came before, once a parameter has been set or all have been read,
      the shape is the one its parameters describe. *)
  Theorem C70_resynchronised k ra0 dec0 size0 cmds c dir : keeps c ->
    let '(ra, dec, size) := after_all (cmds ++ [c]) (ra0, dec0, size0) in
    s_value sep (run_s (cmds ++ [c]) (new_spatial mkdir k ra0 dec0 size0)) dir = shape k (sep dir (mkdir ra dec) * 180 / PI) size.
  Proof.
    intros K. set (s := new_spatial mkdir k ra0 dec0 size0). destruct (run_s_params (cmds ++ [c]) s) as (P & Q). change (params s) with (ra0, dec0, size0) in P. rewrite <- P. cbn.
    unfold s_value. rewrite Q. cbn [s s_kind new_spatial]. unfold run_s. rewrite fold_left_app. cbn [fold_left]. destruct (keeps_sync (fold_left do_s cmds s) c K) as (-> & ->). reflexivity.
  Qed.

  (** So it is when nothing else has been done to it. *)
  Theorem C70_synchronised k ra0 dec0 size0 cmds dir : (forall c, In c cmds -> keeps c) ->
    let '(ra, dec, size) := after_all cmds (ra0, dec0, size0) in
    s_value sep (run_s cmds (new_spatial mkdir k ra0 dec0 size0)) dir = shape k (sep dir (mkdir ra dec) * 180 / PI) size.
  Proof.
    intros K. destruct cmds as [|c l] using rev_ind; [reflexivity|]. apply C70_resynchronised. apply K, in_or_app. right. now left.
  Qed.

  (** Moving the shape changes where it is, not its size or its parameters. *)
  Theorem C70_moved (s : spatial) ra dec dir :
    s_value sep (s_setCenter mkdir s ra dec) dir = shape (s_kind s) (sep dir (mkdir ra dec) * 180 / PI) (s_size s) /\
    params (s_setCenter mkdir s ra dec) = params s.
  Proof. split; reflexivity. Qed.

  (** So the next parameter that is set moves it back. *)
  Theorem C70_move_refuted k ra0 dec0 size0 ra dec size dir :
    s_value sep (run_s [Move ra dec; Set3 2 size] (new_spatial mkdir k ra0 dec0 size0)) dir = shape k (sep dir (mkdir ra0 dec0) * 180 / PI) size.
  Proof. reflexivity. Qed.

  (** Parameters set as a vector, as reReadXml does it, change nothing. *)
  Theorem C70_reread_refuted (s : spatial) ra dec size dir : s_value sep (s_reread s ra dec size) dir = s_value sep s dir /\ params (s_reread s ra dec size) = (ra, dec, size).
  Proof. split; reflexivity. Qed.

  (** *** Limits of integration *)

  (** The function that sets them ends without a return value. *)
  Theorem C70_limits_refuted (s : spatial (Dir := Dir)) (dir : Dir) : getDiffRespLimits s dir = UB.
  Proof. reflexivity. Qed.

  (** The limits hold every direction as near as the farthest point of a disk,
      as long as the cone does not reach around the sky. *)
  Theorem C70_limits_partial (s : spatial) dir theta : s_kind s = Disk -> 0 <= s_size s -> 0 <= sep dir (s_dir s) ->
    sep dir (s_dir s) + 3 * radians (s_size s) <= PI -> 0 <= theta <= sep dir (s_dir s) + radians (s_size s) ->
    fst (fst (limits sep s dir)) <= cos theta <= snd (fst (limits sep s dir)) /\ snd (limits sep s dir) = (0, 2 * PI).
  Proof.
    intros K Z D L T. pose proof PI_RGT_0. unfold limits. rewrite K. cbn [fst snd]. split; [|reflexivity]. assert (0 <= radians (s_size s)) by (unfold radians; apply Rmult_le_pos; [apply Rmult_le_pos; lra|lra]).
    replace (3 * s_size s * PI / 180) with (3 * radians (s_size s)) by (unfold radians; field). split; [|apply COS_bound].
    destruct (Req_dec theta (sep dir (s_dir s) + 3 * radians (s_size s))) as [->|Q]; [lra|]. left. apply cos_decreasing_1; lra.
  Qed.
End Functions.
Print Assumptions C70_resynchronised.
Print Assumptions C70_synchronised.
Print Assumptions C70_moved.
Print Assumptions C70_move_refuted.
Print Assumptions C70_reread_refuted.
Print Assumptions C70_limits_refuted.
Print Assumptions C70_limits_partial.

(** Otherwise they may leave out part of the source: a disk of 60 degrees seen
    from 90 degrees away, and a Gaussian seen from the opposite side. *)
Theorem C70_limits_wrap_refuted :
  (exists theta, 0 <= theta <= PI / 2 + radians 60 /\ cos theta < fst (fst (limits on_line (new_spatial pair Disk 0 0 60) (90, 0)))) /\
  (forall sigma, 0 < sigma < 30 -> cos PI < fst (fst (limits on_line (new_spatial pair Gaussian 0 0 sigma) (180, 0)))).
Proof.
  pose proof PI_RGT_0. unfold limits, on_line, new_spatial, radians. cbn [fst snd s_kind s_dir s_size]. split.
  - exists (2 * (PI / 3)). split; [lra|]. rewrite Rminus_0_r, Rabs_right by lra. replace (90 * PI / 180 + 3 * 60 * PI / 180) with (PI / 2 + PI) by field. rewrite neg_cos, cos_PI2, Ropp_0.
    apply cos_lt_0; lra.
  - intros sigma S. rewrite Rminus_0_r, Rabs_right by lra. replace (2 * (180 * PI / 180) + 3 * sigma * PI / 180) with (3 * sigma * PI / 180 + 2 * INR 1 * PI) by (simpl; field). rewrite cos_period, cos_PI.
    assert (0 < cos (3 * sigma * PI / 180)); [|lra]. apply cos_gt_0; [assert (0 < 3 * sigma * PI / 180) by nra; lra|]. nra.
Qed.
Print Assumptions C70_limits_wrap_refuted.

(** ** Convolution *)

(** Convolving a disk: the integrand, over rings around the point of
    evaluation, has the arc of the ring that lies in the disk. *)
Theorem C70_disk_arc fn x sigma r : 0 <= x -> 0 < sigma -> 0 <= r -> fst (disk_range x sigma) <= r <= snd (disk_range x sigma) ->
  exists arc, disk_integrand fn x sigma r = Ok (r * fn r * arc / (PI * (sigma * sigma))) /\ 0 <= arc <= 2 * PI /\
  forall phi, Rabs phi < PI -> (Rabs phi < arc / 2 -> dist2 x r phi <= sigma * sigma) /\ (dist2 x r phi < sigma * sigma -> Rabs phi < arc / 2).
Proof.
  intros X S P (L & U). pose proof PI_RGT_0. unfold disk_range in *. cbn [fst snd] in *. assert (L' : x - sigma <= r) by (pose proof (Rmax_l (x - sigma) 0); lra).
  unfold disk_integrand. destruct (Reqb_spec sigma 0); [lra|].
  assert (CD : (r + x) / sigma * sigma = r + x) by (field; lra).
  destruct (Rltb_spec 1 ((r + x) / sigma)) as [Q|Q].
  - assert (Q' : sigma < r + x) by nra. assert (XP : 0 < x * r). { destruct (Req_dec x 0) as [->|]; [lra|]. destruct (Req_dec r 0) as [->|]; [lra|]. apply Rmult_lt_0_compat; lra. }
    destruct (Reqb_spec (2 * x * r) 0); [lra|]. set (c := (x * x + r * r - sigma * sigma) / (2 * x * r)). cbn zeta.
    assert (CE : c * (2 * x * r) = x * x + r * r - sigma * sigma) by (unfold c; field; split; intros E; rewrite E in XP; lra).
    assert (C1 : c <= 1). { apply Rmult_le_reg_r with (2 * x * r); [lra|]. rewrite CE. nra. }
    assert (C2 : -1 <= c). { apply Rmult_le_reg_r with (2 * x * r); [lra|]. rewrite CE. nra. }
    destruct (Rltb_spec c (-1)); [lra|]. destruct (Rltb_spec 1 c); [lra|]. cbn [orb obind]. exists (2 * acos c). pose proof (acos_bound c) as AB. split; [reflexivity|]. split; [lra|].
    intros phi PH. replace (2 * acos c / 2) with (acos c) by field. unfold dist2.
    assert (EC : cos phi = cos (Rabs phi)) by (unfold Rabs; destruct (Rcase_abs phi); [now rewrite cos_neg|reflexivity]). rewrite EC. pose proof (Rabs_pos phi). split; intros Z.
    + assert (c < cos (Rabs phi)). { rewrite <- (cos_acos c) by lra. apply cos_decreasing_1; lra. } nra.
    + assert (c < cos (Rabs phi)) by nra. destruct (Rlt_le_dec (Rabs phi) (acos c)) as [|W]; [assumption|]. exfalso. assert (cos (Rabs phi) <= c); [|lra]. rewrite <- (cos_acos c) by lra.
      destruct W as [W|W]; [left; apply cos_decreasing_1; lra|rewrite W; lra].
  - cbn [obind]. exists (2 * PI). split; [reflexivity|]. split; [lra|]. intros phi PH. replace (2 * PI / 2) with PI by field. split; [intros _|intros _; exact PH].
    unfold dist2. pose proof (COS_bound phi). assert (r + x <= sigma) by nra. assert (0 <= x * r) by (apply Rmult_le_pos; lra). nra.
Qed.
Print Assumptions C70_disk_arc.

(** Rings outside the range of integration do not meet the disk. *)
Theorem C70_disk_range x sigma r phi : 0 <= x -> 0 < sigma -> 0 <= r -> (r < fst (disk_range x sigma) \/ snd (disk_range x sigma) < r) -> sigma * sigma <= dist2 x r phi.
Proof.
  intros X S P Q. unfold disk_range, dist2 in *. cbn [fst snd] in *. pose proof (COS_bound phi). assert (0 <= x * r) by (apply Rmult_le_pos; lra).
  assert (D : x * x + r * r - 2 * x * r <= x * x + r * r - 2 * x * r * cos phi) by nra. destruct Q as [Q|Q].
  - assert (r < x - sigma) by (unfold Rmax in Q; destruct (Rle_dec (x - sigma) 0); lra). nra.
  - nra.
Qed.
Print Assumptions C70_disk_range.

(** Convolving a Gaussian: the integrand is the ring's integral of it, for the
    scaled Bessel function. *)
Theorem C70_gauss_ring bessel fn x sigma r : 0 <= x -> 0 < sigma -> 0 <= r ->
  (forall z, 0 <= z -> is_RInt (fun phi => exp (z * cos phi)) 0 (2 * PI) (2 * PI * exp z * bessel z)) ->
  exists v, gauss_integrand bessel fn x sigma r = Ok (r * fn r * v) /\
  is_RInt (fun phi => 1 / (2 * PI * (sigma * sigma)) * exp (- dist2 x r phi / (2 * (sigma * sigma)))) 0 (2 * PI) v.
Proof.
  intros X S P B. pose proof PI_RGT_0. unfold gauss_integrand. destruct (Reqb_spec sigma 0); [lra|]. set (z := x * r / (sigma * sigma)).
  assert (0 < sigma * sigma) by nra. assert (Z : 0 <= z) by (unfold z; apply Rmult_le_pos; [apply Rmult_le_pos; lra|left; now apply Rinv_0_lt_compat]).
  exists (bessel z * exp (z - (x * x + r * r) / (2 * (sigma * sigma))) / (sigma * sigma)). split; [cbn zeta; fold z; f_equal; field; lra|].
  pose proof (is_RInt_scal _ _ _ (1 / (2 * PI * (sigma * sigma)) * exp (- (x * x + r * r) / (2 * (sigma * sigma)))) _ (B z Z)) as I. unfold scal in I. simpl in I. unfold mult in I. simpl in I.
  evar_last; [eapply is_RInt_ext; [|exact I]|].
  - intros phi _. cbn beta. rewrite Rmult_assoc, <- exp_plus. f_equal. f_equal. unfold dist2, z. field. lra.
  - unfold Rminus. rewrite exp_plus. replace (- ((x * x + r * r) / (2 * (sigma * sigma)))) with (- (x * x + r * r) / (2 * (sigma * sigma))) by (field; lra). field. lra.
Qed.
Print Assumptions C70_gauss_ring.

(** It is taken in one piece over all rings up to six sigma beyond the centre. *)
Theorem C70_gauss_range x sigma : gauss_ranges x sigma = [(0, x + 6 * sigma)] /\
  forall r phi, 0 <= x -> 0 <= sigma -> x + 6 * sigma < r -> 36 * (sigma * sigma) <= dist2 x r phi.
Proof.
  split.
  - unfold gauss_ranges. destruct (Rltb_spec (Rmax (x - 6 * sigma) 0) 0); [pose proof (Rmax_r (x - 6 * sigma) 0); lra|reflexivity].
  - intros r phi X S P. unfold dist2. pose proof (COS_bound phi). assert (0 <= x * r) by (apply Rmult_le_pos; lra). assert (D : x * x + r * r - 2 * x * r <= x * x + r * r - 2 * x * r * cos phi) by nra. nra.
Qed.
Print Assumptions C70_gauss_range.

(** ** Diffuse sources *)
Section Diffuse.
  Context {Dir : Type}.
  Variable mkdir : R -> R -> Dir.
  Variable gal_center : Dir.

  (** A source can be moved just when it says so ... *)
  Theorem C70_moveable (s : diffuse (Dir := Dir)) ra dec : (isMoveable s = true <-> exists s', moveSource mkdir s ra dec = Ok s') /\ (isMoveable s = false -> moveSource mkdir s ra dec = Throw).
  Proof. unfold isMoveable, moveSource. destruct (d_dist s); split; try (split; eauto); try discriminate; try reflexivity. intros (s' & E). discriminate. Qed.

  (** ... and then its reference direction is the new one, unless it is the
      same everywhere. *)
  Theorem C70_moved_reference (s s' : diffuse (Dir := Dir)) ra dec : moveSource mkdir s ra dec = Ok s' ->
    mapRefDir gal_center s' = Ok (mkdir ra dec) \/ (d_dist s = ConstantValue /\ s' = s).
  Proof. unfold moveSource, mapRefDir. destruct (d_dist s) eqn:E; intros M; try discriminate; injection M as <-; [right; auto|left; reflexivity|left; reflexivity]. Qed.

  (** The reference direction of a profile that has never been evaluated is a
      null pointer. *)
  Theorem C70_reference_refuted theta prof : mapRefDir gal_center (new_diffuse (Profile (new_profile theta prof))) = UB.
  Proof. reflexivity. Qed.

  (** The radius is that of the shape when it is first asked for ... *)
  Theorem C70_radius (d : spatialDist (Dir := Dir)) r : computeMapRadius (new_diffuse d) = Ok r -> 0 <= r ->
    snd (mapRadius (new_diffuse d)) = Ok r /\ snd (mapRadius (fst (mapRadius (new_diffuse d)))) = Ok r.
  Proof.
    intros E R0. unfold mapRadius. cbn [new_diffuse d_radius]. destruct (Rltb_spec (-1) 0); [|lra]. fold (new_diffuse d). rewrite E. cbn [fst snd d_radius]. split; [reflexivity|]. destruct (Rltb_spec r 0); [lra|reflexivity].
  Qed.
  Theorem C70_radius_values (s : spatial (Dir := Dir)) theta prof last : nth_error theta (length theta - 1) = Some last ->
    computeMapRadius (new_diffuse (Spatial s)) = Ok (match s_kind s with Disk => s_size s | Gaussian => 5 * s_size s end) /\
    computeMapRadius (new_diffuse (Profile (new_profile (Dir := Dir) theta prof))) = Ok last /\
    computeMapRadius (new_diffuse (Dir := Dir) ConstantValue) = Ok 180 /\
    forall r g ref, computeMapRadius (new_diffuse (Dir := Dir) (MapDist (radians r) g ref)) = Ok r.
  Proof.
    intros L. pose proof PI_RGT_0. unfold computeMapRadius, new_diffuse, s_mapRadius, p_mapRadius, new_profile. cbn [d_dist p_theta]. split; [reflexivity|]. split.
    - pose proof (nth_lt _ _ _ L). rewrite back_nth by (intros ->; simpl in *; lia). f_equal. now apply nth_error_nth.
    - split; [reflexivity|]. intros. f_equal. unfold radians. field. lra.
  Qed.

  (** ... and stays so when the shape grows. *)
  Theorem C70_radius_refuted k ra dec size size' : 0 <= size ->
    let s := fst (mapRadius (new_diffuse (Spatial (new_spatial mkdir k ra dec size)))) in
    snd (mapRadius (mkDiffuse (Spatial (s_setParam mkdir (new_spatial mkdir k ra dec size) SSize size')) (d_radius s))) = snd (mapRadius s).
  Proof.
    intros H. assert (E : forall s' : diffuse (Dir := Dir), computeMapRadius s' = Ok (match k with Disk => size | Gaussian => 5 * size end) -> d_radius s' = -1 -> fst (mapRadius s') = mkDiffuse (d_dist s') (match k with Disk => size | Gaussian => 5 * size end)).
    { intros s' C D. unfold mapRadius. rewrite D, C. destruct (Rltb_spec (-1) 0); [reflexivity|lra]. }
    cbn zeta. rewrite E by reflexivity. unfold mapRadius. cbn [d_radius]. destruct (Rltb_spec (match k with Disk => size | Gaussian => 5 * size end) 0); [destruct k; lra|reflexivity].
  Qed.

  (** The integral over the sky of a disk is taken to be one, its value in a
      plane: on the sphere it is less. *)
  Theorem C70_unity_refuted ra dec r energy : 0 < r <= 180 -> d_angularIntegral (new_diffuse (Spatial (new_spatial mkdir Disk ra dec r))) energy = Ok 1 /\
    exists v total, shape Disk 0 r = Ok v /\ is_RInt (fun t => 2 * PI * sin t * v) 0 (radians r) total /\ total < 1.
  Proof.
    intros H. pose proof PI_RGT_0. split; [reflexivity|]. destruct (C70_disk 0 r ltac:(lra)) as (D & _). set (p := radians r). assert (P : 0 < p <= PI) by (unfold p, radians; split; nra).
    exists (1 / (PI * (p * p))), (2 * (1 - cos p) / (p * p)). split; [apply D; lra|]. split.
    - evar_last; [apply (is_RInt_derive (fun t => - (2 * PI * (1 / (PI * (p * p)))) * cos t)); intros t _; [auto_derive; [exact I|ring]|]; apply (ex_derive_continuous (V := R_NormedModule)); auto_derive; exact I|].
      unfold minus, plus, opp. simpl. rewrite cos_0. field. lra.
    - assert (E : cos p = 1 - 2 * sin (p / 2) * sin (p / 2)) by (rewrite <- cos_2a_sin; f_equal; field). rewrite E.
      pose proof (sin_lt_x (p / 2) ltac:(lra)) as A. pose proof (sin_ge_0 (p / 2) ltac:(lra) ltac:(lra)) as B. apply Rmult_lt_reg_r with (p * p); [nra|]. replace (2 * (1 - (1 - 2 * sin (p / 2) * sin (p / 2))) / (p * p) * (p * p)) with (4 * (sin (p / 2) * sin (p / 2))) by (field; lra). nra.
  Qed.
End Diffuse.
Print Assumptions C70_moveable.
Print Assumptions C70_moved_reference.
Print Assumptions C70_reference_refuted.
Print Assumptions C70_radius.
Print Assumptions C70_radius_values.
Print Assumptions C70_radius_refuted.
Print Assumptions C70_unity_refuted.

(** ** Point sources *)

(** The direction of a point source is always that of its parameters. *)
Theorem C70_direction {Dir} (mkdir : R -> R -> Dir) ra0 dec0 (cmds : list (bool * R)) :
  exists s, mfold (fun (s : skydir (Dir := Dir)) (c : bool * R) => k_setParam mkdir s (if fst c then KRA else KDEC) (snd c)) cmds (new_skydir mkdir ra0 dec0) = Ok s /\
  k_pra s = fold_left (fun (x : R) (c : bool * R) => if fst c then snd c else x) cmds ra0 /\ k_pdec s = fold_left (fun (x : R) (c : bool * R) => if fst c then x else snd c) cmds dec0 /\
  k_ra s = k_pra s /\ k_dec s = k_pdec s /\ k_dir s = mkdir (k_pra s) (k_pdec s).
Proof.
  assert (G : forall (cmds : list (bool * R)) (s : skydir (Dir := Dir)), k_ra s = k_pra s -> k_dec s = k_pdec s -> k_dir s = mkdir (k_pra s) (k_pdec s) -> exists s', mfold (fun (s : skydir (Dir := Dir)) (c : bool * R) => k_setParam mkdir s (if fst c then KRA else KDEC) (snd c)) cmds s = Ok s' /\
    k_pra s' = fold_left (fun (x : R) (c : bool * R) => if fst c then snd c else x) cmds (k_pra s) /\ k_pdec s' = fold_left (fun (x : R) (c : bool * R) => if fst c then x else snd c) cmds (k_pdec s) /\ k_ra s' = k_pra s' /\ k_dec s' = k_pdec s' /\ k_dir s' = mkdir (k_pra s') (k_pdec s')).
  { clear. induction cmds as [|[[] x] cmds IH]; intros s A B C; [exists s; repeat split; assumption| |]; cbn [mfold fst snd k_setParam obind fold_left].
    - destruct (IH (mkSkydir x (k_pdec s) x (k_dec s) (mkdir x (k_dec s)))) as (s' & Q); cbn; try congruence. exists s'. exact Q.
    - destruct (IH (mkSkydir (k_pra s) x (k_ra s) x (mkdir (k_ra s) x))) as (s' & Q); cbn; try congruence. exists s'. exact Q. }
  apply (G cmds (new_skydir mkdir ra0 dec0)); reflexivity.
Qed.
Print Assumptions C70_direction.

(** An unknown parameter throws and changes nothing. *)
Theorem C70_direction_unknown {Dir} (mkdir : R -> R -> Dir) s x : k_setParam mkdir s KOther x = Throw.
Proof. reflexivity. Qed.
Print Assumptions C70_direction_unknown.

(** A case: a table of three points, read, moved, evaluated. *)
Example C70_case :
  rising [0; 1; 3] /\ fst (readTemplateFile [[0; 4]; [1; 2]; [3; 1]]) = ([0; 1; 3], [4; 2; 1]) /\
  snd (p_value pair on_line (run_p pair on_line [SetRA 50; Evaluate (0, 0); Centre 10 0; SetDEC 3] (new_profile [0; 1; 3] [4; 2; 1])) (12, 0)) = Ok (3 / 2).
Proof.
  assert (Hrise : rising [0; 1; 3]). { intros [|[|[|i]]] a b A B; try discriminate; try (injection A as <-; injection B as <-; lra). all: destruct i; discriminate. }
  split; [exact Hrise|]. split.
  - unfold readTemplateFile. cbn [read_lines app last]. destruct (Rltb_spec 1 0); [lra|]. destruct (Rltb_spec 3 1); [lra|]. reflexivity.
  - change [SetRA 50; Evaluate (0, 0); Centre 10 0; SetDEC 3] with ([SetRA 50; Evaluate (0, 0)] ++ Centre 10 0 :: [SetDEC 3]). rewrite C70_centre_set by (intros a b [E|[]]; discriminate). rewrite on_line_degrees. cbn [fst].
    replace (Rabs (12 - 10)) with 2 by (rewrite Rabs_right; lra). rewrite (C70_line _ _ 1 1 2 3 1 2 Hrise); [f_equal; field|repeat split; reflexivity|left; lra|left; lra].
Qed.

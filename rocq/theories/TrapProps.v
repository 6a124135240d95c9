(** Property C07: trapezoidal quadrature. *)
From Coq Require Import Reals Lra.
From Coquelicot Require Import Coquelicot.
From Verif Require Import Base TrapModel TrapSpec TrapProofs.
Local Open Scope R_scope.

Theorem C07_sum_of_trapezoids :
  forall xs ys, length xs = length ys -> (2 <= length xs)%nat ->
    integral (FromData xs ys false) = Ok (trapezoids (combine xs ys)).
Proof. intros xs ys H1 H2. rewrite H1 in H2. exact (lin_trapezoids xs ys H1 H2). Qed.
Print Assumptions C07_sum_of_trapezoids.

(** On increasing abscissae the value is the integral of the piecewise linear
    interpolant of the data. *)
Theorem C07_integral_of_interpolant :
  forall xs ys, length xs = length ys -> (2 <= length xs)%nat -> increasing xs ->
    exists v, integral (FromData xs ys false) = Ok v /\ segments line (combine xs ys) v.
Proof.
  intros xs ys H1 H2 H3. exists (trapezoids (combine xs ys)). split.
  - apply C07_sum_of_trapezoids; auto.
  - apply line_segments; [|now rewrite combine_fst].
    destruct xs, ys; simpl in *; try lia; discriminate.
Qed.
Print Assumptions C07_integral_of_interpolant.

(** With the log option it is the integral of the interpolant for which x*y is
    linear in log x. *)
Theorem C07_log_integral_of_interpolant :
  forall xs ys, length xs = length ys -> (2 <= length xs)%nat -> increasing xs -> Forall (Rlt 0) xs ->
    exists v, integral (FromData xs ys true) = Ok v /\ segments logline (combine xs ys) v.
Proof.
  intros xs ys H1 H2 H3 H4. eexists. split.
  - rewrite H1 in H2. exact (log_trapezoids xs ys H1 H2 H4).
  - apply logline_segments.
    + destruct xs, ys; simpl in *; try lia; discriminate.
    + now rewrite combine_fst.
    + rewrite Forall_forall in *. intros p Hp. apply H4. destruct p. exact (in_combine_l _ _ _ _ Hp).
Qed.
Print Assumptions C07_log_integral_of_interpolant.

(** The interpolants do take the given values at the nodes. *)
Theorem C07_interpolants_pass_through_nodes :
  forall p q, 0 < fst p < fst q ->
    line p q (fst p) = snd p /\ line p q (fst q) = snd q /\
    logline p q (fst p) = snd p /\ logline p q (fst q) = snd q.
Proof.
  intros p q H. assert (ln (fst p) < ln (fst q)) by (apply ln_increasing; lra).
  unfold line, logline. repeat split; field; lra.
Qed.
Print Assumptions C07_interpolants_pass_through_nodes.

(** Exact on affine integrands, for any abscissae and for the uniform grid. *)
Theorem C07_exact_affine :
  forall a b f, (forall x, f x = a * x + b) ->
    (forall x0 xs, xs <> [] ->
       integral_at (FromFunc f false) (x0 :: xs) =
       Ok ((a * (last xs 0 + x0) / 2 + b) * (last xs 0 - x0))) /\
    (forall xmin xmax npts, (2 <= npts)%nat ->
       integral_range (FromFunc f false) xmin xmax npts =
       Ok ((a * (xmax + xmin) / 2 + b) * (xmax - xmin))).
Proof.
  intros a b f Hf. split.
  - intros x0 xs Hn. unfold integral_at, compute.
    rewrite lin_trapezoids by (destruct xs; simpl in *; try congruence; rewrite ?map_length; lia).
    rewrite map_grid, (map_ext _ (fun x => (x, a * x + b))) by (intros; now rewrite Hf).
    rewrite trapezoids_affine. destruct xs; [congruence|reflexivity].
  - intros xmin xmax npts Hn. exact (integral_range_affine f a b xmin xmax npts Hn Hf).
Qed.
Print Assumptions C07_exact_affine.

(** Linear in the ordinates. *)
Theorem C07_linear :
  forall c d xs ys zs v w, length xs = length ys -> length xs = length zs -> (2 <= length xs)%nat ->
    integral (FromData xs ys false) = Ok v -> integral (FromData xs zs false) = Ok w ->
    integral (FromData xs (map (fun p => c * fst p + d * snd p) (combine ys zs)) false)
    = Ok (c * v + d * w).
Proof.
  intros c d xs ys zs v w H1 H2 H3 E F.
  rewrite C07_sum_of_trapezoids in E by auto. rewrite C07_sum_of_trapezoids in F by auto.
  rewrite C07_sum_of_trapezoids; auto.
  - injection E as <-. injection F as <-. now rewrite trapezoids_linear.
  - rewrite map_length, combine_length. lia.
Qed.
Print Assumptions C07_linear.

(** Additive when the table is split at a node. *)
Theorem C07_additive :
  forall l p r v w, l <> [] -> r <> [] ->
    integral (FromData (map fst (l ++ [p])) (map snd (l ++ [p])) false) = Ok v ->
    integral (FromData (map fst (p :: r)) (map snd (p :: r)) false) = Ok w ->
    integral (FromData (map fst (l ++ p :: r)) (map snd (l ++ p :: r)) false) = Ok (v + w).
Proof.
  assert (C : forall l : list (R * R), combine (map fst l) (map snd l) = l).
  { induction l as [|[a b] l IH]; simpl; congruence. }
  assert (N : forall A (l : list A), l <> [] -> (1 <= length l)%nat).
  { intros A [|]; simpl; [congruence|lia]. }
  intros l p r v w Hl Hr E F. apply N in Hl as Ll. apply N in Hr as Lr.
  rewrite C07_sum_of_trapezoids, C in E
    by (rewrite !map_length; auto; rewrite app_length; simpl; lia).
  rewrite C07_sum_of_trapezoids, C in F by (rewrite !map_length; auto; simpl; lia).
  rewrite C07_sum_of_trapezoids, C by (rewrite !map_length; auto; rewrite app_length; simpl; lia).
  injection E as <-. injection F as <-. destruct r as [|q r]; [congruence|]. f_equal. apply trapezoids_app.
Qed.
Print Assumptions C07_additive.

(** Non-negative for non-negative integrands. *)
Theorem C07_nonneg :
  forall xs ys v, length xs = length ys -> (2 <= length xs)%nat -> increasing xs -> Forall (Rle 0) ys ->
    integral (FromData xs ys false) = Ok v -> 0 <= v.
Proof.
  intros xs ys v H1 H2 H3 H4 E. rewrite C07_sum_of_trapezoids in E by auto. injection E as <-.
  apply trapezoids_nonneg; [now rewrite combine_fst|].
  rewrite Forall_forall in *. intros p Hp. apply H4. destruct p. exact (in_combine_r _ _ _ _ Hp).
Qed.
Print Assumptions C07_nonneg.

Example C07_case :
  integral (FromData [1; 2; 4] [3; 5; 7] false) = Ok 16 /\ increasing [1; 2; 4] /\
  Forall (Rlt 0) [1; 2; 4].
Proof.
  rewrite C07_sum_of_trapezoids by (simpl; lia). simpl. split; [f_equal; lra|].
  split; [lra|repeat constructor; lra].
Qed.

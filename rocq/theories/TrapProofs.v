From Coq Require Import Reals Lra.
From Coquelicot Require Import Coquelicot.
From Verif Require Import Base TrapModel TrapSpec.
Local Open Scope R_scope.

(** Sum of f over 0..n-1. *)
Fixpoint isum (f : nat -> R) (n : nat) : R := match n with 0%nat => 0 | S n' => isum f n' + f n' end.

Lemma isum_ext f g n : (forall k, (k < n)%nat -> f k = g k) -> isum f n = isum g n.
Proof. induction n as [|n IH]; intros H; simpl; auto. rewrite IH, H by auto; auto. Qed.

Lemma isum_shift f n : isum f (S n) = f 0%nat + isum (fun k => f (S k)) n.
Proof. induction n as [|n IH]; simpl in *; [lra|]. rewrite IH. lra. Qed.

Definition trap_gen (z g : nat -> R) (n : nat) : R :=
  isum (fun k => (z k + z (S k)) / 2 * (g (S k) - g k)) n.

Lemma nodes_trap z g n :
  z 0%nat * (g 1%nat - g 0%nat) / 2 + z (S n) * (g (S n) - g n) / 2 +
  isum (fun k => z (S k) * (g (S (S k)) - g k) / 2) n = trap_gen z g (S n).
Proof.
  induction n as [|n IH]; unfold trap_gen in *; [simpl; lra|].
  change (isum ?f (S (S n))) with (isum f (S n) + f (S n)). rewrite <- IH. simpl isum. lra.
Qed.

Section Gen.
Variables (wt : R -> R -> R -> R -> R) (xs ys : list R) (z g : nat -> R).
Hypothesis Hlen : length xs = length ys.
Hypothesis wt_ok : forall k lo hi, (k < length ys)%nat -> (lo < length ys)%nat -> (hi < length ys)%nat ->
  wt (nth k ys 0) (nth k xs 0) (nth lo xs 0) (nth hi xs 0) = z k * (g hi - g lo) / 2.

Lemma quad_loop_ok n : forall sum, (S n < length ys)%nat ->
  quad_loop wt xs ys n sum = Ok (sum + isum (fun k => z (S k) * (g (S (S k)) - g k) / 2) n).
Proof.
  induction n as [|n IH]; intros sum H; simpl.
  - f_equal. lra.
  - rewrite (vec_get_ok ys _ 0) by lia. simpl.
    repeat (rewrite (vec_get_ok xs _ 0) by lia; cbn [obind]).
    rewrite IH by lia. rewrite wt_ok by lia. f_equal. lra.
Qed.

Lemma quad_ok : (2 <= length ys)%nat -> quad wt xs ys = Ok (trap_gen z g (length ys - 1)).
Proof.
  intros H. unfold quad. assert (E : length ys = S (S (length ys - 2))) by lia.
  revert E. generalize (length ys - 2)%nat. intros n E. rewrite E.
  replace (S (S n) =? 0)%nat with false by reflexivity.
  replace (S (S n) <? 2)%nat with false by (symmetry; apply Nat.ltb_ge; lia).
  rewrite (vec_get_ok ys 0 0) by lia. cbn [obind].
  rewrite (vec_get_ok xs 0 0) by lia. cbn [obind].
  rewrite (vec_get_ok xs 1 0) by lia. cbn [obind].
  rewrite (vec_get_ok ys _ 0) by lia. cbn [obind].
  rewrite (vec_get_ok xs (S (S n) - 1) 0) by lia. cbn [obind].
  rewrite (vec_get_ok xs _ 0) by lia. cbn [obind].
  rewrite quad_loop_ok by lia. f_equal.
  rewrite (wt_ok 0 0 1), (wt_ok (S (S n) - 1) n (S (S n) - 1)) by lia.
  replace (S (S n) - 1)%nat with (S n) by lia. replace (S (S n) - 2)%nat with n by lia.
  apply nodes_trap.
Qed.
End Gen.

Lemma trap_list (pts : list (R * R)) : 
  trapezoids pts = trap_gen (fun k => nth k (map snd pts) 0) (fun k => nth k (map fst pts) 0) (length pts - 1).
Proof.
  induction pts as [|p [|q t] IH]; try reflexivity.
  change (trapezoids (p :: q :: t)) with ((snd p + snd q) / 2 * (fst q - fst p) + trapezoids (q :: t)).
  rewrite IH. simpl length. unfold trap_gen.
  replace (S (S (length t)) - 1)%nat with (S (length t)) by lia.
  replace (S (length t) - 1)%nat with (length t) by lia.
  rewrite isum_shift. reflexivity.
Qed.

Lemma combine_fst (xs ys : list R) : length xs = length ys -> map fst (combine xs ys) = xs.
Proof. revert ys; induction xs as [|x xs IH]; intros [|y ys]; simpl; intros; try discriminate; auto. f_equal. auto. Qed.
Lemma combine_snd (xs ys : list R) : length xs = length ys -> map snd (combine xs ys) = ys.
Proof. revert ys; induction xs as [|x xs IH]; intros [|y ys]; simpl; intros; try discriminate; auto. f_equal. auto. Qed.

Lemma lin_trapezoids xs ys : length xs = length ys -> (2 <= length ys)%nat ->
  compute_integral xs ys = Ok (trapezoids (combine xs ys)).
Proof.
  intros Hl Hn. unfold compute_integral.
  rewrite (quad_ok lin_wt xs ys (fun k => nth k ys 0) (fun k => nth k xs 0)); auto.
  rewrite trap_list, combine_fst, combine_snd, combine_length, Hl, Nat.min_id by auto. reflexivity.
Qed.

Lemma log_trapezoids xs ys : length xs = length ys -> (2 <= length ys)%nat -> Forall (Rlt 0) xs ->
  compute_log_integral xs ys =
  Ok (trapezoids (map (fun p => (ln (fst p), fst p * snd p)) (combine xs ys))).
Proof.
  intros Hl Hn Hp. unfold compute_log_integral.
  assert (Hpos : forall k, (k < length ys)%nat -> 0 < nth k xs 0).
  { intros k Hk. rewrite Forall_forall in Hp. apply Hp. apply nth_In. lia. }
  rewrite (quad_ok log_wt xs ys (fun k => nth k xs 0 * nth k ys 0) (fun k => ln (nth k xs 0))); auto.
  - rewrite trap_list, !map_map, map_length, combine_length, Hl, Nat.min_id. f_equal.
    unfold trap_gen. apply isum_ext. intros k Hk. simpl.
    assert (N : forall f j, (j < length ys)%nat ->
       nth j (map f (combine xs ys)) 0 = f (nth j xs 0, nth j ys 0)).
    { intros f j Hj. rewrite (nth_indep _ 0 (f (0, 0))) by (rewrite map_length, combine_length; lia).
      rewrite (map_nth f), combine_nth by auto. reflexivity. }
    rewrite !N by lia. reflexivity.
  - intros k lo hi Hk Hlo Hhi. unfold log_wt. rewrite ln_div by auto. lra.
Qed.

(** Laws of the trapezoidal sum. *)
Lemma trapezoids_app (l : list (R * R)) p q r :
  trapezoids (l ++ p :: q :: r) = trapezoids (l ++ [p]) + trapezoids (p :: q :: r).
Proof.
  induction l as [|a l IH]; [simpl; lra|].
  destruct l as [|b l]; [simpl; lra|].
  change (trapezoids ((a :: b :: l) ++ p :: q :: r)) with
    ((snd a + snd b) / 2 * (fst b - fst a) + trapezoids ((b :: l) ++ p :: q :: r)).
  change (trapezoids ((a :: b :: l) ++ [p])) with
    ((snd a + snd b) / 2 * (fst b - fst a) + trapezoids ((b :: l) ++ [p])).
  rewrite IH. lra.
Qed.

Lemma trapezoids_affine a b (xs : list R) x0 :
  trapezoids (map (fun x => (x, a * x + b)) (x0 :: xs)) =
  (a * (last (x0 :: xs) 0 + x0) / 2 + b) * (last (x0 :: xs) 0 - x0).
Proof.
  revert x0; induction xs as [|x1 xs IH]; intros x0; [simpl; lra|].
  change (map (fun x => (x, a * x + b)) (x0 :: x1 :: xs)) with
    ((x0, a * x0 + b) :: map (fun x => (x, a * x + b)) (x1 :: xs)).
  change (trapezoids ((x0, a * x0 + b) :: map (fun x => (x, a * x + b)) (x1 :: xs))) with
    ((a * x0 + b + (a * x1 + b)) / 2 * (x1 - x0) + trapezoids (map (fun x => (x, a * x + b)) (x1 :: xs))).
  rewrite IH. change (last (x0 :: x1 :: xs) 0) with (last (x1 :: xs) 0). nra.
Qed.

Lemma trapezoids_linear c d : forall xs ys zs, length xs = length ys -> length xs = length zs ->
  trapezoids (combine xs (map (fun p => c * fst p + d * snd p) (combine ys zs))) =
  c * trapezoids (combine xs ys) + d * trapezoids (combine xs zs).
Proof.
  induction xs as [|x xs IH]; intros [|y ys] [|z zs] H1 H2; simpl in H1, H2; try discriminate; [simpl; lra|].
  destruct xs as [|x' xs], ys as [|y' ys], zs as [|z' zs]; simpl in H1, H2; try discriminate; [simpl; lra|].
  specialize (IH (y' :: ys) (z' :: zs) ltac:(simpl; lia) ltac:(simpl; lia)).
  cbn -[Rdiv Rplus Rmult Rminus] in IH |- *. rewrite IH. lra.
Qed.

Lemma trapezoids_nonneg (pts : list (R * R)) : increasing (map fst pts) -> Forall (fun p => 0 <= snd p) pts ->
  0 <= trapezoids pts.
Proof.
  induction pts as [|p [|q t] IH]; intros H F; try (simpl; lra).
  change (trapezoids (p :: q :: t)) with ((snd p + snd q) / 2 * (fst q - fst p) + trapezoids (q :: t)).
  simpl in H. destruct H as [H1 H2]. inversion F as [|? ? Hp F']; subst. inversion F' as [|? ? Hq _]; subst.
  specialize (IH H2 F'). assert (0 <= (snd p + snd q) / 2 * (fst q - fst p)) by (apply Rmult_le_pos; lra). lra.
Qed.

(** The quadratures are integrals of interpolants. *)
Lemma line_integral p q : fst p < fst q ->
  is_RInt (line p q) (fst p) (fst q) ((snd p + snd q) / 2 * (fst q - fst p)).
Proof.
  intros H.
  set (F := fun t => snd p * t + (snd q - snd p) * ((t - fst p) ^ 2 / 2 / (fst q - fst p))).
  replace ((snd p + snd q) / 2 * (fst q - fst p)) with (F (fst q) - F (fst p)) by (unfold F; field; lra).
  apply (is_RInt_derive F (line p q)).
  - intros t _. unfold F, line. auto_derive; auto. field. lra.
  - intros t _. unfold line. apply (ex_derive_continuous (V := R_NormedModule)). auto_derive. lra.
Qed.

Lemma logline_integral p q : 0 < fst p -> fst p < fst q ->
  is_RInt (logline p q) (fst p) (fst q)
    ((fst p * snd p + fst q * snd q) / 2 * (ln (fst q) - ln (fst p))).
Proof.
  intros H0 H. assert (L : ln (fst p) < ln (fst q)) by (apply ln_increasing; lra).
  set (u := fst p * snd p). set (v := fst q * snd q).
  set (F := fun t => u * ln t + (v - u) * ((ln t - ln (fst p)) ^ 2 / 2 / (ln (fst q) - ln (fst p)))).
  replace ((u + v) / 2 * (ln (fst q) - ln (fst p))) with (F (fst q) - F (fst p)) by (unfold F; field; lra).
  apply (is_RInt_derive F (logline p q)).
  - intros t Ht. rewrite Rmin_left, Rmax_right in Ht by lra. unfold F, logline. fold u v.
    auto_derive; [lra|]. field. lra.
  - intros t Ht. rewrite Rmin_left, Rmax_right in Ht by lra.
    unfold logline. fold u v. apply (ex_derive_continuous (V := R_NormedModule)). auto_derive. lra.
Qed.

Lemma line_segments (pts : list (R * R)) : pts <> [] -> increasing (map fst pts) ->
  segments line pts (trapezoids pts).
Proof.
  induction pts as [|p [|q t] IH]; intros N H; [congruence|constructor|].
  destruct H as [H1 H2]. apply seg_cons; [now apply line_integral|]. apply IH; [discriminate|exact H2].
Qed.

Lemma logline_segments (pts : list (R * R)) : pts <> [] -> increasing (map fst pts) ->
  Forall (fun p => 0 < fst p) pts ->
  segments logline pts (trapezoids (map (fun p => (ln (fst p), fst p * snd p)) pts)).
Proof.
  induction pts as [|p [|q t] IH]; intros N H F; [congruence|constructor|].
  destruct H as [H1 H2]. inversion F; subst. apply seg_cons; [now apply logline_integral|].
  apply IH; [discriminate|exact H2|auto].
Qed.

(** grid of integral(xmin, xmax, npts) *)
Lemma grid_length a b n : length (grid a b n) = n.
Proof. unfold grid. now rewrite map_length, seq_length. Qed.

Lemma map_grid (f : R -> R) (xs : list R) : combine xs (map f xs) = map (fun x => (x, f x)) xs.
Proof. induction xs as [|x xs IH]; simpl; auto. now rewrite IH. Qed.

Lemma grid_shape a b n : (2 <= n)%nat ->
  exists xs, grid a b n = a :: xs /\ last (a :: xs) 0 = b.
Proof.
  intros H. unfold grid. destruct n as [|n]; [lia|]. simpl seq. simpl map.
  exists (map (fun i => INR i * ((b - a) / (INR (S n) - 1)) + a) (seq 1 n)).
  split. { f_equal. simpl. lra. }
  destruct n as [|n]; [lia|].
  rewrite seq_S, map_app. cbn [map]. rewrite app_comm_cons, last_last.
  change (1 + n)%nat with (S n). rewrite !S_INR. pose proof (pos_INR n). field. lra.
Qed.

Lemma integral_range_affine f c d a b n : (2 <= n)%nat -> (forall x, f x = c * x + d) ->
  integral_range (FromFunc f false) a b n = Ok ((c * (b + a) / 2 + d) * (b - a)).
Proof.
  intros Hn Hf. unfold integral_range, compute.
  rewrite lin_trapezoids by (rewrite ?map_length, ?grid_length; auto).
  rewrite map_grid. rewrite (map_ext _ (fun x => (x, c * x + d))) by (intros; now rewrite Hf).
  destruct (grid_shape a b n Hn) as (xs & -> & L). rewrite trapezoids_affine, L. reflexivity.
Qed.

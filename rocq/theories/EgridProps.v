(** Property C09: energy grid extension. *)
From Coq Require Import Reals Lra.
From Verif Require Import Base EgridModel EgridProofs.
Local Open Scope R_scope.

(** The input is kept at offset [n]; the added points continue the first and
    the last ratio of the grid. *)
Theorem C09_expand_energies :
  forall energies n, (2 <= length energies)%nat -> Forall (fun e => 0 < e) energies ->
    exists out, expand_energies energies n = Ok out /\
      length out = (length energies + 2 * n)%nat /\
      (forall k, (k < length energies)%nat -> nth (n + k) out 0 = nth k energies 0) /\
      (forall i, (1 <= i <= n)%nat ->
         nth (n - i) out 0 = nth 0 energies 0 * (nth 0 energies 0 / nth 1 energies 0) ^ i /\
         nth (n + length energies - 1 + i) out 0 =
           nth (length energies - 1) energies 0 *
             (nth (length energies - 1) energies 0 / nth (length energies - 2) energies 0) ^ i).
Proof. exact expand_ok. Qed.
Print Assumptions C09_expand_energies.

Theorem C09_expand_increasing :
  forall energies n out, (2 <= length energies)%nat -> Forall (fun e => 0 < e) energies ->
    (forall k, (S k < length energies)%nat -> nth k energies 0 < nth (S k) energies 0) ->
    expand_energies energies n = Ok out ->
    Forall (fun e => 0 < e) out /\ forall k, (S k < length out)%nat -> nth k out 0 < nth (S k) out 0.
Proof. exact expand_increasing. Qed.
Print Assumptions C09_expand_increasing.

(** Grids with fewer than two energies are left alone. *)
Theorem C09_short_grid_unchanged :
  forall energies n, (length energies < 2)%nat -> expand_energies energies n = Ok energies.
Proof. intros energies n H. unfold expand_energies. now rewrite (proj2 (Nat.ltb_lt _ _) H). Qed.
Print Assumptions C09_short_grid_unchanged.

Theorem C09_log_ratios :
  forall energies, energies <> [] -> Forall (fun e => 0 < e) energies ->
    exists r, log_energy_ratios energies = Ok r /\ length r = (length energies - 1)%nat /\
      forall i, (S i < length energies)%nat -> nth i r 0 = ln (nth (S i) energies 0 / nth i energies 0).
Proof.
  intros energies N F. exists (ratios energies). split; [destruct energies; auto; contradiction|].
  exact (ratios_ok energies F).
Qed.
Print Assumptions C09_log_ratios.

Example C09_case :
  let energies := [10; 100; 1000] in (2 <= length energies)%nat /\ Forall (fun e => 0 < e) energies /\
  (forall k, (S k < length energies)%nat -> nth k energies 0 < nth (S k) energies 0).
Proof.
  simpl. split; [lia|]. split; [repeat constructor; lra|].
  intros [|[|[|k]]] H; simpl; try lra; lia.
Qed.

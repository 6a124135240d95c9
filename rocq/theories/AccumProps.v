(** Property C04: compensated accumulators. *)
From Coq Require Import Reals Lra.
From Verif Require Import Base AccumModel AccumSpec AccumProofs.

(** Kahan_Accumulator: for every arithmetic in which subtracting undoes adding,
    every history of add and total returns the running sums. *)
Theorem C04_kahan_totals :
  forall (T : Type) (zero : T) (add sub : T -> T -> T),
    (forall a, sub a zero = a) -> (forall a b, sub (sub (add a b) a) b = zero) ->
    forall os, kahan_run zero add sub (kahan_init zero) os = totals_spec zero add zero os.
Proof. intros T zero add sub H1 H2 os. exact (kahan_correct zero add sub H1 H2 os zero). Qed.
Print Assumptions C04_kahan_totals.

Example C04_kahan_case :
  kahan_run 0%Z Z.add Z.sub (kahan_init 0%Z)
    [AAdd 3; AAdd (-5); AAdd 10; ATotal; ATotal; AAdd 4; ATotal]%Z = [8; 0; 4]%Z /\
  (forall a, (a - 0 = a)%Z) /\ (forall a b, ((a + b - a - b) = 0)%Z).
Proof. split; [reflexivity|]. split; intros; lia. Qed.

(** Accumulator: every history in which no zero is added before the first
    non-zero value is free of undefined behaviour and exceptions (in particular the logarithmic
    bin index is always in range) and returns the running sums. *)
Theorem C04_accumulator_totals_partial :
  forall os : list (acc_op R),
    first_add_nonzero os ->
    accum_run accum_init os = Ok (totals_spec 0%R Rplus 0%R os).
Proof. intros os H. exact (accum_correct os H). Qed.
Print Assumptions C04_accumulator_totals_partial.

Example C04_accumulator_case :
  first_add_nonzero [ATotal; AAdd 3; AAdd 0; ATotal; AAdd (-5); AAdd 2; ATotal]%R /\
  totals_spec 0%R Rplus 0%R [ATotal; AAdd 3; AAdd 0; ATotal; AAdd (-5); AAdd 2; ATotal]%R
    = [0; 0 + 3 + 0; 0 + -5 + 2]%R.
Proof. split; [simpl; lra|reflexivity]. Qed.

(** Missing: a history that starts by adding zero reads uninitialised bounds. *)
Theorem C04_accumulator_zero_first_refuted :
  forall os, accum_run accum_init (AAdd 0%R :: os) = UB.
Proof. intros os. exact (accum_zero_first os). Qed.
Print Assumptions C04_accumulator_zero_first_refuted.

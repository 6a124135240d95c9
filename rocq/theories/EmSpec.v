(** What the fit by expectation maximisation is about, independently of the code. *)
From Coq Require Import Reals List.
Import ListNotations.
Local Open Scope R_scope.

(** f 0 + ... + f (n-1). *)
Fixpoint sum (n : nat) (f : nat -> R) : R := match n with O => 0 | S k => sum k f + f k end.

(** The unbinned log-likelihood of a model with sources 0 .. nsrc-1 for events 0 .. nev-1: F i j is the flux
    density of source i at event j, N i the number of events source i predicts. *)
Definition loglike (nsrc nev : nat) (F : nat -> nat -> R) (N : nat -> R) : R :=
  sum nev (fun j => ln (sum nsrc (fun i => F i j))) - sum nsrc N.

(** The probability that event j comes from source i. *)
Definition share (nsrc : nat) (F : nat -> nat -> R) (i j : nat) : R := F i j / sum nsrc (fun i' => F i' j).

(** x counts if the condition holds. *)
Definition where_ {P Q : Prop} (c : {P} + {Q}) (x : R) : R := if c then x else 0.

(** The distribution function of chi-squared with 2k degrees of freedom. *)
Definition chi2_cdf_even (k : nat) (x : R) : R :=
  1 - exp (- (x / 2)) * sum k (fun m => (x / 2) ^ m / INR (fact m)).

(** Columns of a table given as a list of rows. *)
Definition cell (W : list (list R)) (i j : nat) : R := nth j (nth i W []) 0.
Definition sized (n m : nat) (W : list (list R)) : Prop := length W = n /\ forall i, (i < n)%nat -> length (nth i W []) = m.

(** For C80/C180. *)
From Coq Require Import Reals ZArith List.
From Verif Require Import Base NscModel.
Import ListNotations.
Local Open Scope R_scope.

(** Values a fit may give to the parameters: free ones within their bounds, the others as they are. *)
Definition allowed (ps : list par) (xs : list R) : Prop :=
  List.Forall2 (fun p x => if pr_free p then pr_lo p <= x <= pr_hi p else x = pr_val p) ps xs.
(** The parameters with the one at place i freed, or fixed at x. *)
Definition freed (ps : list par) (i : nat) (p : par) : list par :=
  upd ps i (mk_par (pr_src p) (pr_norm p) (pr_val p) true (pr_lo p) (pr_hi p)).
Definition pinned (ps : list par) (i : nat) (p : par) (x : R) : list par :=
  upd ps i (mk_par (pr_src p) (pr_norm p) x false (pr_lo p) (pr_hi p)).
(** v is the largest value f takes on allowed values. *)
Definition best (f : list R -> R) (ps : list par) (v : R) : Prop :=
  (exists xs, allowed ps xs /\ f xs = v) /\ forall xs, allowed ps xs -> f xs <= v.
(** The optimizer finds it, from allowed values. *)
Definition right (like : nat -> nat -> list R -> R) (optimum : nat -> nat -> list par -> list R) : Prop :=
  forall kmin kmax ps, allowed ps (map pr_val ps) ->
  allowed ps (optimum kmin kmax ps) /\ best (like kmin kmax) ps (like kmin kmax (optimum kmin kmax ps)).
(** n values from a to b in equal steps. *)
Definition even_grid (a b : R) (n : nat) (l : list R) : Prop :=
  length l = n /\ nth 0 l 0 = a /\ nth (n - 1) l 0 = b /\
  forall k, (S k < n)%nat -> nth (S k) l 0 - nth k l 0 = (b - a) / INR (n - 1).

(** What a scan of the parameter p at place i should report: the best likelihood and the value of the parameter there; as
    many values as asked for; for each the best likelihood with the parameter fixed there, not above the best one. *)
Definition good_scan (like : list R -> R) (ps : list par) (i : nat) (p : par) (nnorms : nat) (sc : scan) : Prop :=
  best like (freed ps i p) (sc_like sc) /\
  (exists xs, allowed (freed ps i p) xs /\ like xs = sc_like sc /\ nth_error xs i = Some (sc_mle sc)) /\
  length (sc_norms sc) = nnorms /\
  List.Forall2 (fun x v => best like (pinned ps i p x) v /\ v <= sc_like sc) (sc_norms sc) (sc_likes sc).

(** Model of Likelihood/TrapQuad.h and src/TrapQuad.cxx over the reals (no
    rounding; std::log is the real logarithm, used at positive arguments). *)
From Coq Require Import Reals.
From Verif Require Import Base.
Local Open Scope R_scope.

(** One weighted node: [y[n] * w(x[n+1], x[n-1])], where the two variants of the
    quadrature differ in the weight. *)
Section Quad.
Variable wt : R -> R -> R -> R -> R. (* y x lo hi *)

(** The loop [while (--n > 0) sum += ...] of TrapQuad.cxx:93 and 117, entered with
    [n] already decremented: [loop n sum] adds the nodes n, n-1, ..., 1. *)
Fixpoint quad_loop (xs ys : list R) (n : nat) (sum : R) : outcome R :=
  match n with
  | 0%nat => Ok sum
  | S n' =>
      obind (vec_get ys n) (fun y => obind (vec_get xs n) (fun x =>
      obind (vec_get xs (S n)) (fun hi => obind (vec_get xs n') (fun lo =>
      quad_loop xs ys n' (sum + wt y x lo hi)))))
  end.

(** TrapQuad.cxx:88-95 and 113-118.  [m_y[n-1]] with n = 0 is out of bounds. *)
Definition quad (xs ys : list R) : outcome R :=
  let n := length ys in
  if (n =? 0)%nat then UB else
  obind (vec_get ys 0) (fun y0 => obind (vec_get xs 0) (fun x0 =>
  obind (vec_get xs 1) (fun x1 =>
  obind (vec_get ys (n - 1)) (fun yl => obind (vec_get xs (n - 1)) (fun xl =>
  if (n <? 2)%nat then UB else
  obind (vec_get xs (n - 2)) (fun xp =>
  quad_loop xs ys (n - 2) (wt y0 x0 x0 x1 + wt yl xl xp xl))))))).
End Quad.

(** TrapQuad.cxx:88-95: [y*(hi - lo)/2]. *)
Definition lin_wt (y x lo hi : R) : R := y * (hi - lo) / 2.
Definition compute_integral := quad lin_wt.
(** TrapQuad.cxx:97-119: [y*x*log(hi/lo)/2]. *)
Definition log_wt (y x lo hi : R) : R := y * x * ln (hi / lo) / 2.
Definition compute_log_integral := quad log_wt.

(** TrapQuad.h:27-43: an object built from a function or from two vectors. *)
Inductive trapquad :=
| FromFunc (f : R -> R) (useLog : bool)
| FromData (xs ys : list R) (useLog : bool).

Definition compute (useLog : bool) := if useLog then compute_log_integral else compute_integral.

(** TrapQuad.cxx:19-34. *)
Definition integral (q : trapquad) : outcome R :=
  match q with
  | FromFunc _ _ => Throw
  | FromData xs ys useLog => compute useLog xs ys
  end.

(** TrapQuad.cxx:36-61.  With one point the step is a division by zero; the
    vector accesses that follow are out of bounds then, as with no point. *)
Definition grid (xmin xmax : R) (npts : nat) : list R :=
  let xstep := (xmax - xmin) / (INR npts - 1) in
  map (fun i => INR i * xstep + xmin) (seq 0 npts).
Definition integral_range (q : trapquad) (xmin xmax : R) (npts : nat) : outcome R :=
  match q with
  | FromData _ _ _ => Throw
  | FromFunc f useLog =>
      let xs := grid xmin xmax npts in compute useLog xs (map f xs)
  end.

(** TrapQuad.cxx:63-86. *)
Definition integral_at (q : trapquad) (xs : list R) : outcome R :=
  match q with
  | FromData _ _ _ => Throw
  | FromFunc f useLog => compute useLog xs (map f xs)
  end.

(** Spectral functions: the power-law family (C33).  True values come in the order of addParam.  All over
    the real numbers, without rounding; [None] stands for NaN, infinity or an exception. *)
From Coq Require Import Reals.
From Verif Require Import Base DerivSpec SpecFn.
Local Open Scope R_scope.

(** ** PowerLaw2: Integral, Index, LowerLimit, UpperLimit *)
(** The values that updateCache leaves in the cache for the current arguments, PowerLaw2.h:50-80 (that the
    cache always holds them is C32): log and power of the two limits, log of x, power of x. *)
(** src/PowerLaw2.cxx:42-59 *)
Definition PowerLaw2_value : fvalue := fun t x =>
  match t with
  | [NN; gamma; x1; x2] =>
      lx <-? rlog x; llo <-? rlog x1; lhi <-? rlog x2; plo <-? rpow x1 (1 + gamma); phi <-? rpow x2 (1 + gamma);
      if Req_EM_T gamma (-1) then a <-? rdiv NN x; rdiv a (lhi - llo)
      else g <-? rdiv (1 + gamma) (phi - plo); Some (NN * g * exp (lx * gamma))
  | _ => None
  end.
(** src/PowerLaw2.cxx:61-118; the limits throw. *)
Definition PowerLaw2_deriv : fderiv := fun i t sc x =>
  match t with
  | [NN; gamma; x1; x2] =>
      s <-? nth_error sc i;
      lx <-? rlog x; llo <-? rlog x1; lhi <-? rlog x2; plo <-? rpow x1 (1 + gamma); phi <-? rpow x2 (1 + gamma);
      match i with
      | 0%nat =>
          if Req_EM_T gamma (-1) then a <-? rdiv 1 x; v <-? rdiv a (lhi - llo); Some (v * s)
          else g <-? rdiv (1 + gamma) (phi - plo); Some (g * exp (lx * gamma) * s)
      | 1%nat =>
          if Req_EM_T gamma (-1) then a <-? rdiv (- NN) (2 * x); v <-? rdiv (a * (lhi + llo - 2 * lx)) (lhi - llo); Some (v * s)
          else v <-? rdiv (NN * (phi * (1 - (1 + gamma) * (lhi - lx)) - plo * (1 - (1 + gamma) * (llo - lx)))) ((phi - plo) * (phi - plo));
               Some (v * exp (lx * gamma) * s)
      | _ => None
      end
  | _ => None
  end.

(** ** LogParabola: norm, alpha, beta, Eb *)
(** src/LogParabola.cxx:53-60 *)
Definition LogParabola_value : fvalue := fun t energy =>
  match t with
  | [norm; alpha; beta; Eb] => x <-? rdiv energy Eb; lx <-? rlog x; p <-? rpow x (- (alpha + beta * lx)); Some (norm * p)
  | _ => None
  end.
(** src/LogParabola.cxx:62-98 *)
Definition LogParabola_deriv : fderiv := fun i t sc energy =>
  match t with
  | [norm; alpha; beta; Eb] =>
      s <-? nth_error sc i;
      x <-? rdiv energy Eb; lx <-? rlog x; dfdnorm <-? rpow x (- (alpha + beta * lx));
      match i with
      | 0%nat => Some (dfdnorm * s)
      | 1%nat => Some (- norm * lx * dfdnorm * s)
      | 2%nat => Some (- norm * lx * lx * dfdnorm * s)
      | 3%nat => v <-? LogParabola_value t energy; q <-? rdiv v Eb; Some (q * (alpha + 2 * beta * lx) * s)
      | _ => None
      end
  | _ => None
  end.

(** ** LogNormal: Prefactor, Log10_Mean, Log10_Sigma *)
(** src/LogNormal.cxx:26-40 *)
Definition LogNormal_value : fvalue := fun t x =>
  match t with
  | [prefactor; mean; sigma] =>
      lx <-? rlog x; foo <-? rdiv (lx / ln 10 - mean) sigma;
      a <-? rdiv (prefactor * ln 10) (sqrt (2 * PI)); b <-? rdiv a x; c <-? rdiv b sigma; Some (c * exp (- foo * foo / 2))
  | _ => None
  end.
(** src/LogNormal.cxx:42-84 *)
Definition LogNormal_deriv : fderiv := fun i t sc x =>
  match t with
  | [prefactor; mean; sigma] =>
      s <-? nth_error sc i; lx <-? rlog x; foo <-? rdiv (lx / ln 10 - mean) sigma; v <-? LogNormal_value t x;
      match i with
      | 0%nat => rdiv (s * v) prefactor
      | 1%nat => rdiv (s * v * foo) sigma
      | 2%nat => q <-? rdiv (s * v) sigma; Some (q * (foo * foo - 1))
      | _ => None
      end
  | _ => None
  end.

(** ** ExpCutoffSEDPeak: Fpeak, Index, Epeak *)
(** src/ExpCutoffSEDPeak.cxx:31-50 *)
Definition SEDPeak_value : fvalue := fun t x =>
  match t with
  | [fpeak; index; epeak] =>
      a <-? rdiv fpeak (epeak * epeak); y <-? rdiv x epeak; p <-? rpow y index; q <-? rpow (exp (1 - y)) (index + 2); Some (a * p * q)
  | _ => None
  end.
(** src/ExpCutoffSEDPeak.cxx:52-97 *)
Definition SEDPeak_deriv : fderiv := fun i t sc x =>
  match t with
  | [fpeak; index; epeak] =>
      s <-? nth_error sc i; v <-? SEDPeak_value t x; y <-? rdiv x epeak;
      match i with
      | 0%nat => q <-? rdiv v fpeak; Some (q * s)
      | 1%nat => l <-? rlog y; Some (v * (l + (1 - y)) * s)
      | 2%nat => q <-? rdiv (- v * (index + 2) * (1 - y)) epeak; Some (q * s)
      | _ => None
      end
  | _ => None
  end.

(** ** ScaleFactor: the parameters of the wrapped spectrum, then ScaleFactor *)
(** src/ScaleFactor.cxx:71-78 *)
Definition prefactor (use_complement : bool) (sf : R) : R := if use_complement then 1 - sf else sf.
(** src/ScaleFactor.cxx:110-113; [n] is the number of parameters of the spectrum. *)
Definition ScaleFactor_value (uc : bool) (n : nat) (V : fvalue) : fvalue := fun t x =>
  sf <-? nth_error t n; v <-? V (firstn n t) x; Some (prefactor uc sf * v).
(** src/ScaleFactor.cxx:115-140 *)
Definition ScaleFactor_deriv (uc : bool) (n : nat) (V : fvalue) (D : fderiv) : fderiv := fun i t sc x =>
  sf <-? nth_error t n;
  if (i =? n)%nat then
    s <-? nth_error sc i; v <-? V (firstn n t) x; Some ((if uc then - v else v) * s)
  else d <-? D i (firstn n t) (firstn n sc) x; Some (prefactor uc sf * d).

(** ** FileFunction: Normalization *)
(** src/FileFunction.cxx:33-42, 56-71.  [interp] is st_facilities::Util::interpolate over the logarithms of the
    tabulated spectrum (external, may throw); [xs] and [ys] are m_x and m_y, whose ends are special-cased; front() and
    back() of an empty table are undefined behaviour, here [None]. *)
Definition FileFunction_value (interp : list R -> list R -> R -> option R) (xs ys : list R) : fvalue := fun t energy =>
  match t with
  | [norm] =>
      x <-? rlog energy;
      x0 <-? nth_error xs 0; if Req_EM_T x x0 then y <-? nth_error ys 0; Some (norm * exp y) else
      xn <-? nth_error xs (length xs - 1); if Req_EM_T x xn then y <-? nth_error ys (length ys - 1); Some (norm * exp y) else
      y <-? interp xs ys x; Some (norm * exp y)
  | _ => None
  end.
(** src/FileFunction.cxx:44-54 *)
Definition FileFunction_deriv (interp : list R -> list R -> R -> option R) (xs ys : list R) : fderiv := fun i t sc energy =>
  match i with 0%nat => s <-? nth_error sc i; x <-? rlog energy; y <-? interp xs ys x; Some (s * exp y) | _ => None end.

(** ** EblAtten: the parameters of the wrapped spectrum, then tau_norm, redshift, ebl_model *)
(** src/EblAtten.cxx:151-167; [tau model energy z] is the external optical depth. *)
Definition attenuation (tau : R -> R -> R -> R) (n : nat) (t : list R) (x : R) : option R :=
  tn <-? nth_error t n; z <-? nth_error t (n + 1); m <-? nth_error t (n + 2); Some (exp (- tn * tau m x z)).
(** src/EblAtten.cxx:103-106 *)
Definition EblAtten_value (tau : R -> R -> R -> R) (n : nat) (V : fvalue) : fvalue := fun t x =>
  v <-? V (firstn n t) x; a <-? attenuation tau n t x; Some (v * a).
(** src/EblAtten.cxx:108-137; redshift and ebl_model throw.  The optical depth is taken after the call of value() has
    brought the EBL model up to date. *)
Definition EblAtten_deriv (tau : R -> R -> R -> R) (n : nat) (V : fvalue) (D : fderiv) : fderiv := fun i t sc x =>
  if (i <? n)%nat then a <-? attenuation tau n t x; d <-? D i (firstn n t) (firstn n sc) x; Some (a * d)
  else if (i =? n)%nat then
    z <-? nth_error t (n + 1); m <-? nth_error t (n + 2); v <-? EblAtten_value tau n V t x; Some (- v * tau m x z)
  else None.

(** Spectral functions: broken power laws and the Band function (C35).  True values in the order of addParam; [None]
    stands for NaN, infinity or an exception; no rounding. *)
From Coq Require Import Reals.
From Verif Require Import Base DerivSpec SpecFn SpecExpModel.
Local Open Scope R_scope.

(** ** BrokenPowerLaw2: Integral, Index1, Index2, BreakValue, LowerLimit, UpperLimit *)
(** src/BrokenPowerLaw2.cxx:218-242 *)
Definition BPL2_N0 (NN index1 index2 x0 x1 x2 : R) : option R :=
  let o1 := 1 - - index1 in let o2 := 1 - - index2 in
  a1 <-? rdiv x1 x0; a2 <-? rdiv x2 x0;
  if Rltd x0 x1 then
    q <-? rdiv (NN * o2) x0; p2 <-? rpow a2 o2; p1 <-? rpow a1 o2; rdiv q (p2 - p1)
  else if Rltd x2 x0 then
    q <-? rdiv (NN * o1) x0; p2 <-? rpow a2 o1; p1 <-? rpow a1 o1; rdiv q (p2 - p1)
  else
    q <-? rdiv NN x0; p1 <-? rpow a1 o1; p2 <-? rpow a2 o2; r1 <-? rdiv (1 - p1) o1; r2 <-? rdiv (p2 - 1) o2; rdiv q (r1 + r2).
(** src/BrokenPowerLaw2.cxx:38-56 *)
Definition BPL2_value : fvalue := fun t x =>
  match t with
  | [NN; index1; index2; x0; x1; x2] =>
      n0 <-? BPL2_N0 NN index1 index2 x0 x1 x2; a <-? rdiv x x0;
      if Rltd x x0 then p <-? rpow a (- - index1); Some (n0 * p) else p <-? rpow a (- - index2); Some (n0 * p)
  | _ => None
  end.
(** src/BrokenPowerLaw2.cxx:83-104 *)
Definition BPL2_dN (NN index1 index2 x0 x1 x2 : R) : option R :=
  let o1 := 1 - - index1 in let o2 := 1 - - index2 in
  a1 <-? rdiv x1 x0; a2 <-? rdiv x2 x0;
  if Rltd x0 x1 then
    q <-? rdiv o2 x0; p2 <-? rpow a2 o2; p1 <-? rpow a1 o2; rdiv q (p2 - p1)
  else if Rltd x2 x0 then
    q <-? rdiv o1 x0; p2 <-? rpow a2 o1; p1 <-? rpow a1 o1; rdiv q (p2 - p1)
  else
    q <-? rdiv 1 x0; p1 <-? rpow a1 o1; p2 <-? rpow a2 o2; r1 <-? rdiv (1 - p1) o1; r2 <-? rdiv (p2 - 1) o2; rdiv q (r1 + r2).
(** NN/x0/denom/denom*(denom - o*(A2*log(x2/x0) - A1*log(x1/x0))), src/BrokenPowerLaw2.cxx:111-115, 133-137 *)
Definition BPL2_dI_out (NN o x0 a1 a2 : R) : option R :=
  p1 <-? rpow a1 o; p2 <-? rpow a2 o; l1 <-? rlog a1; l2 <-? rlog a2;
  q <-? rdiv NN x0; q1 <-? rdiv q (p2 - p1); q2 <-? rdiv q1 (p2 - p1); Some (q2 * ((p2 - p1) - o * (p2 * l2 - p1 * l1))).
(** n0*n0*x0/NN/o/o*(pow(a, o)*(1.-o*log(a))-1.), src/BrokenPowerLaw2.cxx:117-118, 139-140 *)
Definition BPL2_dI_in (NN n0 o x0 a : R) : option R :=
  p <-? rpow a o; l <-? rlog a; q <-? rdiv (n0 * n0 * x0) NN; q1 <-? rdiv q o; q2 <-? rdiv q1 o; Some (q2 * (p * (1 - o * l) - 1)).
(** src/BrokenPowerLaw2.cxx:150-162 *)
Definition BPL2_dx0 (NN n0 o1 o2 x0 x1 x2 a1 a2 : R) : option R :=
  q <-? rdiv (- n0 * n0) NN;
  if Rltd x2 x0 then
    r <-? rdiv 1 o1; p2 <-? rpow a2 o1; p1 <-? rpow a1 o1; Some (q * (r - 1) * (p2 - p1))
  else if Rltd x0 x1 then
    r <-? rdiv 1 o2; p2 <-? rpow a2 o2; p1 <-? rpow a1 o2; Some (q * (r - 1) * (p2 - p1))
  else
    p1 <-? rpow a1 o1; p2 <-? rpow a2 o2; r1 <-? rdiv (1 - p1) o1; r2 <-? rdiv (p2 - 1) o2; Some (q * (r1 + r2 + p1 - p2)).
(** src/BrokenPowerLaw2.cxx:58-178; the limits throw. *)
Definition BPL2_deriv : fderiv := fun i t sc x =>
  match t with
  | [NN; index1; index2; x0; x1; x2] =>
      let gamma1 := - index1 in let gamma2 := - index2 in
      let o1 := 1 - gamma1 in let o2 := 1 - gamma2 in
      s <-? nth_error sc i; n0 <-? BPL2_N0 NN index1 index2 x0 x1 x2;
      a <-? rdiv x x0; a1 <-? rdiv x1 x0; a2 <-? rdiv x2 x0;
      match i with
      | 0%nat =>
          d <-? BPL2_dN NN index1 index2 x0 x1 x2;
          if Rltd x x0 then p <-? rpow a (- gamma1); Some (d * p * s) else p <-? rpow a (- gamma2); Some (d * p * s)
      | 1%nat =>
          if Rltd x0 x1 then Some 0 else
          d <-? (if Rltd x2 x0 then BPL2_dI_out NN o1 x0 a1 a2 else r <-? BPL2_dI_in NN n0 o1 x0 a1; Some (- r));
          if Rltd x x0 then l <-? rlog a; p <-? rpow a (- gamma1); Some ((d + n0 * l) * p * s)
          else p <-? rpow a (- gamma2); Some (d * p * s)
      | 2%nat =>
          if Rltd x2 x0 then Some 0 else
          d <-? (if Rltd x0 x1 then BPL2_dI_out NN o2 x0 a1 a2 else BPL2_dI_in NN n0 o2 x0 a2);
          if Rltd x0 x then l <-? rlog a; p <-? rpow a (- gamma2); Some ((d + n0 * l) * p * s)
          else p <-? rpow a (- gamma1); Some (d * p * s)
      | 3%nat =>
          d <-? BPL2_dx0 NN n0 o1 o2 x0 x1 x2 a1 a2;
          if Rltd x x0 then p <-? rpow a (- gamma1); r <-? rdiv (n0 * gamma1) x0; Some (p * (d + r) * s)
          else p <-? rpow a (- gamma2); r <-? rdiv (n0 * gamma2) x0; Some (p * (d + r) * s)
      | _ => None
      end
  | _ => None
  end.

(** ** BrokenPowerLaw3: Integral1, Index1, Integral2, Index2, LowerLimit1, UpperLimit1, LowerLimit2, UpperLimit2 *)
(** src/BrokenPowerLaw3.cxx:212-231 *)
Definition BPL3_x0 (F1 i1 F2 i2 x1min x1max x2min x2max : R) : option R :=
  let o1 := 1 + i1 in let o2 := 1 + i2 in
  q <-? rdiv F1 F2; r <-? rdiv (q * o1) o2; p2b <-? rpow x2max o2; p2a <-? rpow x2min o2; p1b <-? rpow x1max o1; p1a <-? rpow x1min o1;
  base <-? rdiv (r * (p2b - p2a)) (p1b - p1a); e <-? rdiv 1 (i2 - i1); rpow base e.
(** src/BrokenPowerLaw3.cxx:197-210 *)
Definition BPL3_N0 (x0 F1 i1 x1min x1max : R) : option R :=
  let o1 := 1 + i1 in p <-? rpow x0 i1; pb <-? rpow x1max o1; pa <-? rpow x1min o1; rdiv (F1 * o1 * p) (pb - pa).
(** src/BrokenPowerLaw3.cxx:43-59 *)
Definition BPL3_value : fvalue := fun t x =>
  match t with
  | [F1; i1; F2; i2; x1min; x1max; x2min; x2max] =>
      x0 <-? BPL3_x0 F1 i1 F2 i2 x1min x1max x2min x2max; n0 <-? BPL3_N0 x0 F1 i1 x1min x1max;
      a <-? rdiv x x0; if Rltd x x0 then p <-? rpow a i1; Some (n0 * p) else p <-? rpow a i2; Some (n0 * p)
  | _ => None
  end.
(** n0*(1/o + log(x0) - (pow(b,o)*log(b) - pow(a,o)*log(a))/(pow(b,o) - pow(a,o))), src/BrokenPowerLaw3.cxx:106-110, 126-130 *)
Definition BPL3_dI (n0 o x0 xa xb : R) : option R :=
  r <-? rdiv 1 o; l0 <-? rlog x0; pb <-? rpow xb o; pa <-? rpow xa o; lb <-? rlog xb; la <-? rlog xa;
  q <-? rdiv (pb * lb - pa * la) (pb - pa); Some (n0 * (r + l0 - q)).
(** src/BrokenPowerLaw3.cxx:61-150; the limits throw. *)
Definition BPL3_deriv : fderiv := fun i t sc x =>
  match t with
  | [F1; i1; F2; i2; x1min; x1max; x2min; x2max] =>
      s <-? nth_error sc i;
      x0 <-? BPL3_x0 F1 i1 F2 i2 x1min x1max x2min x2max; n0 <-? BPL3_N0 x0 F1 i1 x1min x1max; a <-? rdiv x x0;
      match i with
      | 0%nat => if Rltd x x0 then p <-? rpow a i1; q <-? rdiv (p * n0) F1; Some (q * s) else Some 0
      | 1%nat => if Rltd x x0 then d <-? BPL3_dI n0 (1 + i1) x0 x1min x1max; p <-? rpow a i1; l <-? rlog a; Some (p * (d + n0 * l) * s) else Some 0
      | 2%nat => if Rltd x x0 then Some 0 else q <-? rdiv n0 F2; p <-? rpow a i2; Some (q * p * s)
      | 3%nat => if Rltd x x0 then Some 0 else d <-? BPL3_dI n0 (1 + i2) x0 x2min x2max; p <-? rpow a i2; l <-? rlog a; Some (p * (d + n0 * l) * s)
      | _ => None
      end
  | _ => None
  end.

(** ** SmoothBrokenPowerLaw: Prefactor, Index1, Scale, Index2, BreakValue, Beta *)
(** src/SmoothBrokenPowerLaw.cxx:38-56 *)
Definition Smooth_value : fvalue := fun t x =>
  match t with
  | [pref; i1; scale; i2; brk; beta] =>
      a <-? rdiv x scale; p <-? rpow a i1; b <-? rdiv x brk; e <-? rdiv (i1 - i2) beta; f <-? rpow b e; q <-? rpow (1 + f) (- beta); Some (pref * p * q)
  | _ => None
  end.
(** value*(-log(1+pow(x/brk,(i1-i2)/beta)) + (i1-i2)*log(x/brk)/beta/(1+pow(x/brk,-(i1-i2)/beta)))*scale *)
Definition smooth_dbeta (v b i1 i2 beta s : R) : option R :=
  e <-? rdiv (i1 - i2) beta; f <-? rpow b e; l1 <-? rlog (1 + f); l <-? rlog b; q <-? rdiv ((i1 - i2) * l) beta;
  e' <-? rdiv (- (i1 - i2)) beta; f' <-? rpow b e'; q' <-? rdiv q (1 + f'); Some (v * (- l1 + q') * s).
(** value*(i1-i2)*pow(x/brk,(i1-i2)/beta)/(1+pow(..))/brk*scale *)
Definition smooth_dbrk (v b i1 i2 brk beta s : R) : option R :=
  e <-? rdiv (i1 - i2) beta; f <-? rpow b e; q <-? rdiv (v * (i1 - i2) * f) (1 + f); q' <-? rdiv q brk; Some (q' * s).
(** src/SmoothBrokenPowerLaw.cxx:59-110 *)
Definition Smooth_deriv : fderiv := fun i t sc x =>
  match t with
  | [pref; i1; scale; i2; brk; beta] =>
      s <-? nth_error sc i; v <-? Smooth_value t x; b <-? rdiv x brk;
      match i with
      | 0%nat => q <-? rdiv v pref; Some (q * s)
      | 1%nat =>
          a <-? rdiv x scale; la <-? rlog a; l <-? rlog b; e <-? rdiv (i1 - i2) beta; f <-? rpow b e; q <-? rdiv (l * f) (1 + f); Some (v * (la - q) * s)
      | 2%nat => q <-? rdiv (- v * i1) scale; Some (q * s)
      | 3%nat => l <-? rlog b; e <-? rdiv (i1 - i2) beta; f <-? rpow b e; q <-? rdiv (v * l * f) (1 + f); Some (q * s)
      | 4%nat => smooth_dbrk v b i1 i2 brk beta s
      | 5%nat => smooth_dbeta v b i1 i2 beta s
      | _ => None
      end
  | _ => None
  end.

(** ** SmoothDoubleBrokenPowerLaw: Prefactor, Index1, Scale, Index2, BreakValue12, Beta12, Index3, BreakValue23, Beta23 *)
(** src/SmoothDoubleBrokenPowerLaw.cxx:46-69 *)
Definition Smooth2_value : fvalue := fun t x =>
  match t with
  | [pref; i1; scale; i2; brk12; beta12; i3; brk23; beta23] =>
      a <-? rdiv x scale; p <-? rpow a i1;
      b <-? rdiv x brk12; e <-? rdiv (i1 - i2) beta12; f1 <-? rpow b e; q <-? rpow (1 + f1) (- beta12);
      b' <-? rdiv x brk23; e' <-? rdiv (i2 - i3) beta23; f2 <-? rpow b' e'; q' <-? rpow (1 + f2) (- beta23); Some (pref * p * q * q')
  | _ => None
  end.
(** src/SmoothDoubleBrokenPowerLaw.cxx:71-141; for Index2 the scale is missing. *)
Definition Smooth2_deriv : fderiv := fun i t sc x =>
  match t with
  | [pref; i1; scale; i2; brk12; beta12; i3; brk23; beta23] =>
      s <-? nth_error sc i; v <-? Smooth2_value t x;
      b <-? rdiv x brk12; e <-? rdiv (i1 - i2) beta12; f1 <-? rpow b e;
      b' <-? rdiv x brk23; e' <-? rdiv (i2 - i3) beta23; f2 <-? rpow b' e';
      match i with
      | 0%nat => q <-? rdiv v pref; Some (q * s)
      | 1%nat => a <-? rdiv x scale; la <-? rlog a; l <-? rlog b; q <-? rdiv (l * f1) (1 + f1); Some (v * (la - q) * s)
      | 2%nat => q <-? rdiv (- v * i1) scale; Some (q * s)
      | 3%nat => l <-? rlog b; l' <-? rlog b'; q <-? rdiv (l * f1) (1 + f1); q' <-? rdiv (l' * f2) (1 + f2); Some (v * (q - q'))
      | 4%nat => smooth_dbrk v b i1 i2 brk12 beta12 s
      | 5%nat => smooth_dbeta v b i1 i2 beta12 s
      | 6%nat => l' <-? rlog b'; q' <-? rdiv (v * l' * f2) (1 + f2); Some (q' * s)
      | 7%nat => smooth_dbrk v b' i2 i3 brk23 beta23 s
      | 8%nat => smooth_dbeta v b' i2 i3 beta23 s
      | _ => None
      end
  | _ => None
  end.

(** ** BandFunction: norm, alpha, beta, Ep, Scale *)
(** src/BandFunction.cxx:56-79 *)
Definition Band_value : fvalue := fun t x =>
  match t with
  | [n0; alpha; beta; ep; scale] =>
      energy <-? rdiv x scale; epeak <-? rdiv ep scale;
      let ebreak := epeak * (alpha - beta) in
      if Rltd beta alpha then
        if Rltd energy ebreak then p <-? rpow energy alpha; r <-? rdiv (- energy) epeak; Some (n0 * p * exp r)
        else p <-? rpow energy beta; q <-? rpow ebreak (alpha - beta); Some (n0 * p * q * exp (beta - alpha))
      else p <-? rpow energy beta; Some (n0 * p)
  | _ => None
  end.
(** src/BandFunction.cxx:81-149; Scale throws. *)
Definition Band_deriv : fderiv := fun i t sc x =>
  match t with
  | [n0; alpha; beta; ep; scale] =>
      s <-? nth_error sc i; energy <-? rdiv x scale; epeak <-? rdiv ep scale;
      let ebreak := epeak * (alpha - beta) in
      match i with
      | 0%nat => v <-? Band_value t x; q <-? rdiv v n0; Some (q * s)
      | 1%nat =>
          if Rltd beta alpha then
            v <-? Band_value t x;
            if Rltd energy ebreak then l <-? rlog energy; Some (v * l * s) else l <-? rlog (epeak * (alpha - beta)); Some (v * l * s)
          else p <-? rpow energy alpha; l <-? rlog energy; Some (n0 * p * l * s)
      | 2%nat =>
          if Rltd beta alpha then
            if Rltd energy ebreak then Some 0
            else v <-? Band_value t x; q <-? rdiv energy epeak; q' <-? rdiv q (alpha - beta); l <-? rlog q'; Some (v * l * s)
          else p <-? rpow energy beta; l <-? rlog energy; Some (n0 * p * l * s)
      | 3%nat =>
          if Rltd beta alpha then
            v <-? Band_value t x;
            if Rltd energy ebreak then q <-? rdiv (v * energy) epeak; q' <-? rdiv q (epeak * scale); Some (q' * s)
            else q <-? rdiv (v * (alpha - beta)) (epeak * scale); Some (q * s)
          else Some 0
      | _ => None
      end
  | _ => None
  end.

(** Spectral functions: the exponential cutoff family (C34).  True values in the order of addParam; [None] stands for
    NaN, infinity or an exception; no rounding. *)
From Coq Require Import Reals.
From Verif Require Import Base DerivSpec SpecFn.
Local Open Scope R_scope.

Definition Rltd (a b : R) : bool := if Rlt_dec a b then true else false.

(** ** PowerLawSuperExpCutoff: Prefactor, Index1, Scale, Cutoff, Index2 *)
(** src/PowerLawSuperExpCutoff.cxx:36-53 *)
Definition PLSuper_value : fvalue := fun t x =>
  match t with
  | [pref; index1; scale; cutoff; index2] =>
      a <-? rdiv x scale; p <-? rpow a index1; b <-? rdiv x cutoff; q <-? rpow b index2; Some (pref * p * exp (- q))
  | _ => None
  end.
(** src/PowerLawSuperExpCutoff.cxx:56-104 *)
Definition PLSuper_deriv : fderiv := fun i t sc x =>
  match t with
  | [pref; index1; scale; cutoff; index2] =>
      s <-? nth_error sc i; v <-? PLSuper_value t x;
      match i with
      | 0%nat => q <-? rdiv v pref; Some (q * s)
      | 1%nat => a <-? rdiv x scale; l <-? rlog a; Some (v * l * s)
      | 2%nat => q <-? rdiv (- v * index1) scale; Some (q * s)
      | 3%nat => b <-? rdiv x cutoff; q <-? rpow b index2; r <-? rdiv (q * index2) cutoff; Some (v * r * s)
      | 4%nat => b <-? rdiv x cutoff; q <-? rpow b index2; l <-? rlog b; Some (- v * q * l * s)
      | _ => None
      end
  | _ => None
  end.

(** The bound of the exponent: std::log(1E100). *)
Definition max_exp : R := ln (10 ^ 100).

(** ** PowerLawSuperExpCutoff2: Prefactor, Index1, Scale, Expfactor, Index2 *)
(** src/PowerLawSuperExpCutoff2.cxx:36-55 *)
Definition PLSuper2_value : fvalue := fun t x =>
  match t with
  | [pref; index1; scale; expfactor; index2] =>
      a <-? rdiv x scale; p <-? rpow a index1; q <-? rpow x index2; Some (pref * p * exp (Rmin (- expfactor * q) max_exp))
  | _ => None
  end.
(** src/PowerLawSuperExpCutoff2.cxx:58-106 *)
Definition PLSuper2_deriv : fderiv := fun i t sc x =>
  match t with
  | [pref; index1; scale; expfactor; index2] =>
      s <-? nth_error sc i; v <-? PLSuper2_value t x;
      match i with
      | 0%nat => q <-? rdiv v pref; Some (q * s)
      | 1%nat => a <-? rdiv x scale; l <-? rlog a; Some (v * l * s)
      | 2%nat => q <-? rdiv (- v * index1) scale; Some (q * s)
      | 3%nat => q <-? rpow x index2; Some (v * (- q) * s)
      | 4%nat => q <-? rpow x index2; l <-? rlog x; Some (- v * expfactor * q * l * s)
      | _ => None
      end
  | _ => None
  end.

(** ** PowerLawSuperExpCutoff3: Prefactor, IndexS, Scale, Expfactor2, Index2 *)
(** src/PowerLawSuperExpCutoff3.cxx:36-54 *)
Definition PLSuper3_value : fvalue := fun t x =>
  match t with
  | [pref; indexS; scale; ef; index2] =>
      a <-? rdiv x scale; l <-? rlog a; q <-? rpow a index2;
      Some (pref * exp (Rmin ((indexS + ef * index2) * l + ef * (1 - q)) max_exp))
  | _ => None
  end.
(** src/PowerLawSuperExpCutoff3.cxx:57-105 *)
Definition PLSuper3_deriv : fderiv := fun i t sc x =>
  match t with
  | [pref; indexS; scale; ef; index2] =>
      s <-? nth_error sc i; v <-? PLSuper3_value t x; a <-? rdiv x scale; l <-? rlog a; q <-? rpow a index2;
      match i with
      | 0%nat => r <-? rdiv v pref; Some (r * s)
      | 1%nat => Some (v * l * s)
      | 2%nat => r <-? rdiv (- (indexS + ef * index2)) scale; r' <-? rdiv (ef * index2 * q) scale; Some (v * (r + r') * s)
      | 3%nat => Some (v * (index2 * l + 1 - q) * s)
      | 4%nat => Some (v * (ef * l) * (1 - q) * s)
      | _ => None
      end
  | _ => None
  end.

(** ** PowerLawSuperExpCutoff4: Prefactor, IndexS, Scale, ExpfactorS, Index2 *)
(** src/PowerLawSuperExpCutoff4.cxx:36-59: a Taylor polynomial near index2 = 0 *)
Definition PLSuper4_value : fvalue := fun t x =>
  match t with
  | [pref; indexS; scale; ef; index2] =>
      a <-? rdiv x scale; y <-? rlog a;
      let y2 := index2 * y in
      if Rltd (Rabs y2) (1 / 100) then Some (pref * exp (y * (indexS - ef * y / 2 * (1 + y2 / 3 * (1 + y2 / 4)))))
      else r <-? rdiv ef index2; r' <-? rdiv r index2; Some (pref * exp (Rmin ((indexS + r) * y + r' * (1 - exp y2)) max_exp))
  | _ => None
  end.
(** src/PowerLawSuperExpCutoff4.cxx:62-119 *)
Definition PLSuper4_deriv : fderiv := fun i t sc x =>
  match t with
  | [pref; indexS; scale; ef; index2] =>
      s <-? nth_error sc i; v <-? PLSuper4_value t x; a <-? rdiv x scale; y <-? rlog a;
      let y2 := index2 * y in
      match i with
      | 0%nat => r <-? rdiv v pref; Some (r * s)
      | 1%nat => Some (v * y * s)
      | 2%nat =>
          w <-? rdiv v scale;
          if Rltd (Rabs y2) (1 / 100) then Some (w * (- indexS + ef * y * (1 + y2 / 2 * (1 + y2 / 3))) * s)
          else r <-? rdiv ef index2; Some (w * (- (indexS + r) + r * exp y2) * s)
      | 3%nat =>
          if Rltd (Rabs y2) (1 / 100) then Some (v * (- y * y / 2 * (1 + y2 / 3 * (1 + y2 / 4))) * s)
          else r <-? rdiv v index2; r' <-? rdiv (1 - exp y2) index2; Some (r * (y + r') * s)
      | 4%nat =>
          if Rltd (Rabs y2) (1 / 100) then Some (- v * ef * y * y * y / 6 * (1 + y2 / 2) * s)
          else r <-? rdiv (- v * ef) index2; r' <-? rdiv r index2; q <-? rdiv 2 index2; Some (r' * (q + y + (y - q) * exp y2) * s)
      | _ => None
      end
  | _ => None
  end.

(** ** ExpCutoff: Prefactor, Index, Scale, Ebreak, P1, P2, P3 *)
(** src/ExpCutoff.cxx:34-58 *)
Definition ExpCutoff_value : fvalue := fun t x =>
  match t with
  | [pref; index; scale; ebreak; p1; p2; p3] =>
      a <-? rdiv x scale; p <-? rpow a index;
      if Rltd x ebreak then Some (pref * p)
      else b <-? rdiv x ebreak; l <-? rlog b; r <-? rdiv (x - ebreak) p1; Some (pref * p * exp (- (r + p2 * l + p3 * l * l)))
  | _ => None
  end.
(** src/ExpCutoff.cxx:60-130; log(x/ebreak), which the code computes first, is computed here where it is used. *)
Definition ExpCutoff_deriv : fderiv := fun i t sc x =>
  match t with
  | [pref; index; scale; ebreak; p1; p2; p3] =>
      s <-? nth_error sc i; v <-? ExpCutoff_value t x;
      match i with
      | 0%nat => r <-? rdiv v pref; Some (r * s)
      | 1%nat => a <-? rdiv x scale; l <-? rlog a; Some (v * l * s)
      | 2%nat => r <-? rdiv index scale; Some (- v * r * s)
      | 3%nat =>
          if Rltd x ebreak then Some 0
          else b <-? rdiv x ebreak; l <-? rlog b; r <-? rdiv 1 p1; r' <-? rdiv p2 ebreak; r'' <-? rdiv (2 * p3 * l) ebreak; Some (v * (r + r' + r'') * s)
      | 4%nat => if Rltd x ebreak then Some 0 else r <-? rdiv (v * (x - ebreak)) p1; r' <-? rdiv r p1; Some (r' * s)
      | 5%nat => if Rltd x ebreak then Some 0 else b <-? rdiv x ebreak; l <-? rlog b; Some (- v * l * s)
      | 6%nat => if Rltd x ebreak then Some 0 else b <-? rdiv x ebreak; l <-? rlog b; Some (- v * l * l * s)
      | _ => None
      end
  | _ => None
  end.

(** ** BrokenPowerLawExpCutoff: Prefactor, Index1, Index2, BreakValue, Eabs, P1 *)
(** src/BrokenPowerLawExpCutoff.cxx:34-60 *)
Definition BPLExp_value : fvalue := fun t x =>
  match t with
  | [pref; index1; index2; brk; eabs; p1] =>
      a <-? rdiv x brk;
      if Rltd x brk && Rltd x eabs then p <-? rpow a index1; Some (pref * p)
      else if Rltd brk x && Rltd x eabs then p <-? rpow a index2; Some (pref * p)
      else if Rltd x brk && Rltd eabs x then p <-? rpow a index1; r <-? rdiv (x - eabs) p1; Some (pref * p * exp (- r))
      else if Rltd brk x && Rltd eabs x then p <-? rpow a index2; r <-? rdiv (x - eabs) p1; Some (pref * p * exp (- r))
      else Some 0
  | _ => None
  end.
(** src/BrokenPowerLawExpCutoff.cxx:62-151; with a zero prefactor the exponential is built from eabs and p1 multiplied
    once more by their scales. *)
Definition BPLExp_deriv : fderiv := fun i t sc x =>
  match t with
  | [pref; ind1; ind2; brk; eabs; p1] =>
      s <-? nth_error sc i; es <-? nth_error sc 4; ps <-? nth_error sc 5; v <-? BPLExp_value t x; a <-? rdiv x brk;
      match i with
      | 0%nat =>
          if Req_EM_T pref 0 then
            if Rltd x brk && Rltd x eabs then p <-? rpow a ind1; Some (p * s)
            else if Rltd brk x && Rltd x eabs then p <-? rpow a ind2; Some (p * s)
            else if Rltd x brk && Rltd eabs x then p <-? rpow a ind1; r <-? rdiv (- (x - eabs * es)) p1; Some (p * s * exp (r * ps))
            else if Rltd brk x && Rltd eabs x then p <-? rpow a ind2; r <-? rdiv (- (x - eabs * es)) p1; Some (p * s * exp (r * ps))
            else Some 0
          else r <-? rdiv v pref; Some (r * s)
      | 1%nat => if Rltd x brk then l <-? rlog a; Some (v * l * s) else Some 0
      | 2%nat => if Rltd brk x then l <-? rlog a; Some (v * l * s) else Some 0
      | 3%nat => if Rltd x brk then r <-? rdiv (- v * ind1) brk; Some (r * s) else r <-? rdiv (- v * ind2) brk; Some (r * s)
      | 4%nat => if Rltd x eabs then Some 0 else r <-? rdiv 1 p1; Some (v * r * s)
      | 5%nat => if Rltd x eabs then Some 0 else r <-? rdiv (v * (x - eabs)) p1; r' <-? rdiv r p1; Some (r' * s)
      | _ => None
      end
  | _ => None
  end.

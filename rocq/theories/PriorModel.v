(** The functions used as priors: LogGaussian and GaussianError (C38).  Over the real numbers; [None] stands for NaN or infinity. *)
From Coq Require Import Reals.
From Verif Require Import Base DerivSpec SpecFn.
Local Open Scope R_scope.

(** ** LogGaussian: Norm, Mean, Sigma *)
(** src/LogGaussian.cxx:23-29: m_log_term, computed by the constructor from its argument. *)
Definition LogGaussian_log_term (sigma : R) : option R := rlog (sqrt (2 * PI) * sigma).
(** src/LogGaussian.cxx:31-38; [m_log_term] is the member. *)
Definition LogGaussian_value (m_log_term : option R) : fvalue := fun t x =>
  match t with
  | [norm; mean; sigma] => lt <-? m_log_term; a <-? rdiv (- (x - mean) * (x - mean) / 2) sigma; b <-? rdiv a sigma; Some (norm * (b - lt))
  | _ => None
  end.
(** src/LogGaussian.cxx:40-79; no scale is used. *)
Definition LogGaussian_deriv (m_log_term : option R) : fderiv := fun i t sc x =>
  match t with
  | [norm; mean; sigma] =>
      let s3 := sigma * sigma * sigma in
      match i with
      | 0%nat => v <-? LogGaussian_value m_log_term t x; rdiv v norm
      | 1%nat => a <-? rdiv (- norm * mean) sigma; rdiv a sigma
      | 2%nat => a <-? rdiv ((x - mean) * (x - mean) / 6) s3; b <-? rdiv 1 sigma; Some (norm * (a - b))
      | _ => None
      end
  | _ => None
  end.
(** src/LogGaussian.cxx:81-88, derivative(x) *)
Definition LogGaussian_derivative (t : list R) (x : R) : option R :=
  match t with
  | [norm; mean; sigma] => a <-? rdiv (- (x - mean)) sigma; b <-? rdiv a sigma; Some (norm * b)
  | _ => None
  end.

(** ** GaussianError: Norm, Mean, Sigma, Offset *)
(** src/GaussianError.cxx:34-45 *)
Definition GaussianError_value : fvalue := fun t x =>
  match t with
  | [norm; mean; sigma; offset] => r <-? rdiv (- (x - mean) * (x - mean)) (2 * sigma * sigma); Some ((r + offset) * norm)
  | _ => None
  end.
(** src/GaussianError.cxx:47-87; no scale is used. *)
Definition GaussianError_deriv : fderiv := fun i t sc x =>
  match t with
  | [norm; mean; sigma; offset] =>
      let s3 := sigma * sigma * sigma in
      match i with
      | 0%nat => v <-? GaussianError_value t x; rdiv v norm
      | 1%nat => rdiv (norm * (x - mean)) (sigma * sigma)
      | 2%nat => rdiv (norm * (x - mean) * (x - mean)) (6 * s3)
      | 3%nat => Some norm
      | _ => None
      end
  | _ => None
  end.
(** src/GaussianError.cxx:89-95, derivative(x) *)
Definition GaussianError_derivative (t : list R) (x : R) : option R :=
  match t with
  | [norm; mean; sigma; offset] => a <-? rdiv (- (x - mean)) (sigma * sigma); Some (norm * a)
  | _ => None
  end.

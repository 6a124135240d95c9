(** Model of the normalisation fit: src/FitUtils.cxx 426-784 and 819-1034,
    src/FitScanner.cxx 223-233 (Gaussian prior).

    Numbers are reals (float/double rounding is not modelled).  Matrix inversion
    and the SVD solver of CLHEP are arbitrary functions.  The covariance, printing
    and the [model] buffer left by the fit are not outputs of the model. *)
From Coq Require Import Reals.
From Verif Require Import Base AccumModel VecModel PoissonModel.
Local Open Scope R_scope.

(** [v.begin()+first .. lastBin==0 ? v.end() : v.begin()+last]; an invalid range is
    undefined. FitUtils.cxx:541-544, 569-572, 846-849. *)
Definition vrange (v : list R) (first last : nat) : outcome (list R) :=
  let stop := if (last =? 0)%nat then length v else last in
  if ((first <=? stop) && (stop <=? length v))%nat then Ok (skipn first (firstn stop v)) else UB.

(** FitUtils.cxx:551-554: add one scaled template to the range [l]. *)
Fixpoint add_row (norm : R) (row l : list R) {struct l} : outcome (list R) :=
  match l with
  | [] => Ok []
  | x :: l' => match row with
               | t :: row' => obind (add_row norm row' l') (fun r => Ok (x + norm * t :: r))
               | [] => UB
               end
  end.
(** FitUtils.cxx:548-555. *)
Fixpoint sum_rows (norms : list R) (templates : list (list R)) (first : nat) (l : list R) : outcome (list R) :=
  match norms, templates with
  | n :: ns, t :: ts =>
      if (first <=? length t)%nat
      then obind (add_row n (skipn first t) l) (fun l' => sum_rows ns ts first l')
      else UB
  | _, _ => Ok l
  end.
(** FitUtils.cxx:523-556; the result is the new content of [total]. *)
Definition sumModel (norms : list R) (templates : list (list R)) (fixed total : list R) (first last : nat)
  : outcome (list R) :=
  if negb (length fixed =? length total)%nat then Throw
  else if negb (length templates =? length norms)%nat then Throw
  else obind (vrange fixed first last) (fun l =>
       obind (sum_rows norms templates first l) (fun r =>
       let stop := if (last =? 0)%nat then length total else last in
       Ok (firstn first total ++ r ++ skipn stop total))).

(** ** The prior of the fit scanner *)
(** FitScanner.h:300-305: central values and (symmetric) inverse covariance.  The
    symmetric matrix is stored as its upper triangle. *)
Record prior := mk_prior { p_central : list R; p_dim : nat; p_upper : nat -> nat -> R }.
Definition sym (u : nat -> nat -> R) (i j : nat) : R := if (i <=? j)%nat then u i j else u j i.
Fixpoint big (f : nat -> R) (n : nat) : R := match n with O => 0 | S n' => big f n' + f n' end.
(** CLHEP vector difference; mismatched sizes are an error. *)
Fixpoint vsub (a b : list R) : outcome (list R) :=
  match a, b with
  | x :: a', y :: b' => obind (vsub a' b') (fun r => Ok (x - y :: r))
  | [], [] => Ok []
  | _, _ => Throw
  end.
(** FitScanner.cxx:223-227: [-0.5 * delta^T H delta]. *)
Definition prior_logLike (p : prior) (params : list R) : outcome R :=
  obind (vsub params (p_central p)) (fun delta =>
  if negb (length delta =? p_dim p)%nat then Throw
  else Ok (- (1 / 2) * big (fun i => big (fun j => nth i delta 0 * sym (p_upper p) i j * nth j delta 0) (p_dim p)) (p_dim p))).
(** FitScanner.cxx:229-232: [H delta]. *)
Definition prior_gradient (p : prior) (params : list R) : outcome (list R) :=
  obind (vsub params (p_central p)) (fun delta =>
  if negb (length delta =? p_dim p)%nat then Throw
  else Ok (map (fun i => big (fun j => sym (p_upper p) i j * nth j delta 0) (p_dim p)) (seq 0 (p_dim p)))).

(** ** Likelihood, gradient, Hessian *)
(** FitUtils.cxx:558-586; result: value and new content of [model]. *)
Definition getLogLikelihood (data norms : list R) (templates : list (list R)) (fixed : list R)
    (pr : option prior) (weights : option (list R)) (model : list R) (first last : nat) : outcome (R * list R) :=
  obind (sumModel norms templates fixed model first last) (fun model' =>
  obind (vrange data first last) (fun d =>
  obind (vrange model' first last) (fun m =>
  obind (match weights with
         | None => logLikePoisson d m
         | Some w => obind (vrange w first last) (fun ws => logLikePoissonW d m ws)
         end) (fun ll =>
  match pr with
  | None => Ok (ll, model')
  | Some p => obind (prior_logLike p norms) (fun lp => Ok (ll + lp, model'))
  end)))).

(** FitUtils.cxx:443-453. *)
Fixpoint fracDiff (data model : list R) : outcome (list R) :=
  match data, model with
  | d :: data', m :: model' =>
      if Rleb d 0 then obind (fracDiff data' model') (fun r => Ok (1 :: r))
      else if Rleb m 0 then Throw
      else obind (fracDiff data' model') (fun r => Ok (1 - d / m :: r))
  | [], [] => Ok []
  | _, _ => Throw
  end.
(** FitUtils.cxx:473-483. *)
Fixpoint data_over_model2 (data model : list R) : outcome (list R) :=
  match data, model with
  | d :: data', m :: model' =>
      if Rleb d 0 then obind (data_over_model2 data' model') (fun r => Ok (0 :: r))
      else if Rleb m 0 then Throw
      else obind (data_over_model2 data' model') (fun r => Ok (d / (m * m) :: r))
  | [], [] => Ok []
  | _, _ => Throw
  end.

Definition ip2 := innerProduct2 0 Rplus (fun x : R => x) Rmult.
Definition ip3 := innerProduct3 0 Rplus (fun x : R => x) Rmult.
Definition ip4 := innerProduct4 0 Rplus (fun x : R => x) Rmult.

Fixpoint oseq {A} (l : list (outcome A)) : outcome (list A) :=
  match l with [] => Ok [] | x :: l' => obind x (fun a => obind (oseq l') (fun r => Ok (a :: r))) end.

(** FitUtils.cxx:619-633: gradient element of template [t] (range of it). *)
Definition grad_elem (w : option (list R)) (fdiff t : list R) : outcome R :=
  match w with Some ws => ip3 ws fdiff t | None => ip2 fdiff t end.
(** FitUtils.cxx:636-653: one upper-triangle row of the Hessian. *)
Definition hess_elem (w : option (list R)) (w2 ti tj : list R) : outcome R :=
  match w with Some ws => ip4 ws w2 ti tj | None => ip3 w2 ti tj end.
Fixpoint hess_rows (w : option (list R)) (w2 : list R) (ts : list (list R)) : outcome (list (list R)) :=
  match ts with
  | [] => Ok []
  | t :: ts' => obind (oseq (map (hess_elem w w2 t) (t :: ts'))) (fun row =>
                obind (hess_rows w w2 ts') (fun rows => Ok (row :: rows)))
  end.

(** [gradient += gPrior; hessian += prior->hessian()], FitUtils.cxx:657-662. *)
Fixpoint vadd (a b : list R) : outcome (list R) :=
  match a, b with
  | x :: a', y :: b' => obind (vadd a' b') (fun r => Ok (x + y :: r))
  | [], [] => Ok []
  | _, _ => Throw
  end.
Definition add_hess (u : nat -> nat -> R) (rows : list (list R)) : list (list R) :=
  map (fun i => map (fun k => nth k (nth i rows []) 0 + sym u i (i + k)) (seq 0 (length (nth i rows [])))) (seq 0 (length rows)).

(** FitUtils.cxx:588-665.  Result: gradient and upper-triangle rows of the Hessian.
    All ranges end at data.size() when lastBin is 0 (line 602). *)
Definition getGradientAndHessian (data norms : list R) (templates : list (list R)) (fixed : list R)
    (pr : option prior) (weights : option (list R)) (model : list R) (first last : nat)
  : outcome (list R * list (list R)) :=
  let stop := if (last =? 0)%nat then length data else last in
  let range v := if ((first <=? stop) && (stop <=? length v))%nat then Ok (skipn first (firstn stop v)) else UB in
  obind (sumModel norms templates fixed model first last) (fun model' =>
  obind (range data) (fun d => obind (range model') (fun m =>
  obind (fracDiff d m) (fun fdiff => obind (data_over_model2 d m) (fun w2 =>
  obind (oseq (map range templates)) (fun ts =>
  obind (match weights with Some w => obind (range w) (fun ws => Ok (Some ws)) | None => Ok None end) (fun w =>
  obind (oseq (map (grad_elem w fdiff) ts)) (fun g =>
  obind (hess_rows w w2 ts) (fun h =>
  match pr with
  | None => Ok (g, h)
  | Some p => obind (prior_gradient p norms) (fun gp => obind (vadd g gp) (fun g' =>
              if negb (length g =? p_dim p)%nat then Throw else Ok (g', add_hess (p_upper p) h)))
  end))))))))).

(** ** Newton step and fit *)
Definition c9999 : R := 9999 / 10000.

Section Fit.
(** CLHEP [HepSymMatrix::invert]: status and matrix. *)
Variable invert : list (list R) -> Z * (nat -> nat -> R).
(** [svd_solve(alpha, gradient)], FitUtils.cxx:105-153: status and solution. *)
Variable svd_solve : list (list R) -> list R -> Z * list R.

Definition mat_vec (c : nat -> nat -> R) (g : list R) : list R :=
  map (fun i => big (fun j => c i j * nth j g 0) (length g)) (seq 0 (length g)).

(** FitUtils.cxx:693-700: clamp steps larger than the norm. *)
Fixpoint clamp_gt (delta norms g : list R) : list R * list R * bool :=
  match delta, norms, g with
  | d :: delta', n :: norms', x :: g' =>
      let '(ds, gs, retry) := clamp_gt delta' norms' g' in
      if Rltb n d then (c9999 * n :: ds, 0 :: gs, true) else (d :: ds, x :: gs, retry)
  | _, _, _ => ([], [], false)
  end.
(** FitUtils.cxx:704-711: second pass, offending steps become zero. *)
Fixpoint clamp_zero (delta norms : list R) : list R :=
  match delta, norms with
  | d :: delta', n :: norms' => (if Rltb n d then 0 else d) :: clamp_zero delta' norms'
  | _, _ => []
  end.
Fixpoint absdot (a b : list R) : R :=
  match a, b with x :: a', y :: b' => Rabs (x * y) + absdot a' b' | _, _ => 0 end.

(** FitUtils.cxx:667-715: status, step, estimated distance to the minimum. *)
Definition delta_newton (hessian : list (list R)) (gradient norms : list R) : Z * list R * R :=
  let (ifail, covar) := invert hessian in
  if negb (ifail =? 0)%Z then (ifail, gradient, 0)
  else
    let '(delta, g2, retry) := clamp_gt (mat_vec covar gradient) norms gradient in
    let edm := absdot delta g2 in
    if (retry : bool) then (0%Z, clamp_zero (mat_vec covar g2) norms, edm) else (0%Z, delta, edm).

(** FitUtils.cxx:753-760 and 774-780. *)
Fixpoint clamp_lo (delta norms g : list R) : list R * list R * bool :=
  match delta, norms, g with
  | d :: delta', n :: norms', x :: g' =>
      let '(ds, gs, retry) := clamp_lo delta' norms' g' in
      if Rltb (n - d) 0 then (Rmin (c9999 * n) (n - 0) :: ds, 0 :: gs, true) else (d :: ds, x :: gs, retry)
  | _, _, _ => ([], [], false)
  end.
(** FitUtils.cxx:726-728. *)
Definition scale_diag (lambda : R) (h : list (list R)) : list (list R) :=
  map (fun row => match row with x :: r => x * (1 + lambda) :: r | [] => [] end) h.
(** FitUtils.cxx:717-784 (Levenberg-Marquardt step); the covariance (737-748) is not
    modelled. *)
Definition delta_lm (hessian : list (list R)) (gradient norms : list R) (lambda : R) : Z * list R * R :=
  let alpha := scale_diag lambda hessian in
  let (ifail, delta0) := svd_solve alpha gradient in
  if negb (ifail =? 0)%Z then (ifail, delta0, 0)
  else
    let '(delta, g2, retry) := clamp_lo delta0 norms gradient in
    let edm := absdot delta gradient in
    if (retry : bool) then
      let (ifail2, delta1) := svd_solve alpha g2 in
      if negb (ifail2 =? 0)%Z then (ifail2, delta1, edm)
      else let '(delta2, _, _) := clamp_lo delta1 norms g2 in (0%Z, delta2, edm)
    else (0%Z, delta, edm).

(** The fit calls the likelihood and its derivatives only as functions of the
    normalisations. *)
Variable LL : list R -> outcome R.
Variable GH : list R -> outcome (list R * list (list R)).

Record fit_state := mk_fit {
  f_norms : list R; f_ll : R; f_lambda : R; f_edm : R; f_dll : R; f_stepOk : bool }.
(** Return code, norms and logLikeVal left in the output arguments. *)
Record fit_result := mk_res { fr_code : Z; fr_norms : list R; fr_ll : R }.

(** FitUtils.cxx:892-984; [fuel] iterations left before maxIter.  The result is
    either an early return or the state after the loop and whether iter reached
    maxIter. *)
Fixpoint fit_loop (fuel : nat) (tol : R) (s : fit_state) : outcome (fit_result + (fit_state * bool)) :=
  match fuel with
  | O => Ok (inr (s, true))
  | S fuel' =>
      if negb (Rltb tol (Rabs (f_edm s))) then Ok (inr (s, false))
      else
        obind (GH (f_norms s)) (fun gh => let (g, h) := gh in
        let '(cov, delta, edm) :=
          if Rltb 0 (f_lambda s) then delta_lm h g (f_norms s) (f_lambda s) else delta_newton h g (f_norms s) in
        if negb (cov =? 0)%Z then Ok (inl (mk_res cov (f_norms s) (f_ll s)))
        else
          obind (vsub (f_norms s) delta) (fun norms_tmp =>
          obind (if Rltb 0 (f_lambda s) then
                   obind (LL norms_tmp) (fun lli =>
                   let dll := lli - f_ll s in
                   if Rltb (f_ll s) lli
                   then Ok (mk_fit norms_tmp lli (Rmax (/ 10 ^ 8) (f_lambda s / 5)) edm dll true)
                   else Ok (mk_fit (f_norms s) (f_ll s) (f_lambda s * 3) edm dll false))
                 else Ok (mk_fit norms_tmp (f_ll s) (f_lambda s) edm (f_dll s) (f_stepOk s)))
          (fun s' =>
          if existsb (fun n => Rltb (10 ^ 9) n) (f_norms s') then Ok (inl (mk_res (-4) (f_norms s') (f_ll s')))
          else if (Rleb (f_lambda s') 0 && Rltb (Rabs (f_edm s')) tol) ||
                  (Rltb 0 (f_lambda s') && Rltb (Rabs (f_edm s')) tol && Rltb (f_dll s') tol && f_stepOk s')
          then Ok (inr (s', false))
          else fit_loop fuel' tol s')))
  end.

(** FitUtils.cxx:836-1034; [nocounts] is the test [data_total < 1e-9].  The logLikeInit
    of line 888 is -1e99. *)
Definition fit_newton (init : list R) (tol : R) (maxIter : nat) (lambda : R) (nocounts : bool)
  : outcome fit_result :=
  obind (LL init) (fun ll0 =>
  if (length init =? 0)%nat then Ok (mk_res 0 init ll0)
  else
    obind (if nocounts then
             let norms := upd init (length init - 1) 0 in
             obind (GH norms) (fun _ => Ok (norms, 0, - 10 ^ 99))
           else Ok (init, 100 * tol, ll0)) (fun st => let '(norms, edm, llInit) := st in
    obind (fit_loop maxIter tol (mk_fit norms ll0 lambda edm 0 true)) (fun r =>
    match r with
    | inl res => Ok res
    | inr (s, atMax) =>
        (* iter >= maxIter also holds when the loop never ran and maxIter is 0 *)
        obind (if Reqb (f_lambda s) 0 then LL (f_norms s)
               else obind (GH (f_norms s)) (fun _ => Ok (f_ll s))) (fun ll =>
        if (atMax : bool) then Ok (mk_res (-2) (f_norms s) ll)
        else if Rltb (ll - llInit) (-1) then Ok (mk_res (-8) (repeat 0 (length init)) llInit)
        else Ok (mk_res 0 (f_norms s) ll))
    end))).
End Fit.

(** fitNorms_newton, FitUtils.cxx:819-1034, on the concrete likelihood. *)
Definition fitNorms_newton (invert : list (list R) -> Z * (nat -> nat -> R))
    (svd_solve : list (list R) -> list R -> Z * list R)
    (data init : list R) (templates : list (list R)) (fixed : list R)
    (pr : option prior) (weights : option (list R)) (tol : R) (maxIter : nat) (lambda : R)
    (model : list R) (first last : nat) : outcome fit_result :=
  obind (vrange data first last) (fun d =>
  fit_newton invert svd_solve
    (fun n => obind (getLogLikelihood data n templates fixed pr weights model first last) (fun p => Ok (fst p)))
    (fun n => getGradientAndHessian data n templates fixed pr weights model first last)
    init tol maxIter lambda (Rltb (fold_left Rplus d 0) eps_data)).

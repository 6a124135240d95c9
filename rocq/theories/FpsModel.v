(** Model of the priors, errors and scans of the fit scanner: src/FitScanner.cxx 223-371 ([FitScanMVPrior]), 1112-1149,
    1271-1331, 1438-1576, 1616-1636, 1831-1873 ([FitScanCache]), src/FitUtils.cxx 265-289, 504-506, 1534-1567.

    Numbers are reals.  CLHEP's vectors are lists; its symmetric matrices have a size and elements.  The operators of CLHEP
    raise an exception if sizes differ, and do not check the index given to [].  Inverting a matrix is external. *)
From Coq Require Import Reals ZArith List Bool Arith Lia.
From Flocq Require Import Core.
From Verif Require Import Base AccumModel.
Import ListNotations.
Local Open Scope nat_scope.

Record mat := mk_mat { dim : nat; el : nat -> nat -> R }.
Fixpoint msum (n : nat) (f : nat -> R) : R := match n with O => 0%R | S k => (msum k f + f k)%R end.
Definition zeros (n : nat) : mat := mk_mat n (fun _ _ => 0%R).
(** HepSymMatrix(n, 0).sub(1, m): the upper left block. *)
Definition set_block (n : nat) (m : mat) : outcome mat :=
  if n <? dim m then Throw else Ok (mk_mat n (fun i j => if (i <? dim m) && (j <? dim m) then el m i j else 0%R)).
(** m.sub(1, n). *)
Definition block (m : mat) (n : nat) : outcome mat := if dim m <? n then Throw else Ok (mk_mat n (el m)).
Definition scaled (f : R) (m : mat) : mat := mk_mat (dim m) (fun i j => (f * el m i j)%R).

(** ** Priors *)
(** FitScanner.h:322-327. *)
Record prior := mk_prior { p_cent : list R; p_cov : mat; p_constrain : list bool; p_test : bool; p_hess : mat }.

(** FitScanner.cxx 289-296, 335-342: the indices of the constrained parameters. *)
Fixpoint idx_red (i : nat) (l : list bool) : list nat :=
  match l with [] => [] | b :: l' => (if b then [i] else []) ++ idx_red (S i) l' end.

Section Inverse.
(** HepSymMatrix::invert; [None]: the status is not zero. *)
Variable inv : mat -> option mat.

(** FitScanner.cxx 287-331. *)
Definition latchReducedMatrix (cent : list R) (cov : mat) (constrain : list bool) (test : bool) : outcome prior :=
  obind (if length (idx_red 0 constrain) <? dim cov
         then if forallb (fun i => i <? dim cov) (idx_red 0 constrain)
              then Ok (mk_mat (length (idx_red 0 constrain)) (fun a b => el cov (nth a (idx_red 0 constrain) 0) (nth b (idx_red 0 constrain) 0)))
              else UB
         else Ok cov) (fun temp =>
  match inv temp with
  | None => Throw
  | Some h =>
    obind (if test then set_block (length (idx_red 0 constrain) + 1) h else Ok h) (fun hess =>
    Ok (mk_prior cent cov constrain test hess))
  end).
(** FitScanner.cxx 235-249. *)
Definition update_cov (cent : list R) (cov : mat) (constrain : list bool) (test : bool) : outcome prior :=
  latchReducedMatrix (if test then cent ++ [0%R] else cent) cov constrain test.

(** FitScanner.cxx 266-271: the diagonal elements of the covariance and of its inverse. *)
Definition diagonal (unc : list R) (has : list bool) (nr : nat) : outcome (list (R * R)) :=
  mfold (fun l i => obind (vec_get has i) (fun h => obind (if h then vec_get unc i else Ok 0%R) (fun u =>
    Ok (l ++ [if h && Rltb 0 (Rabs u) then ((u * u)%R, (1 / (u * u))%R) else (0%R, 0%R)])))) (seq 0 nr) [].
Definition diag_mat (l : list R) : mat := mk_mat (length l) (fun i j => if i =? j then nth i l 0%R else 0%R).
(** FitScanner.cxx 334-371; reading past the end of the vectors is undefined. *)
Definition latchReducedDiagonal (cent : list R) (d : list (R * R)) (constrain : list bool) (test : bool) : outcome prior :=
  obind (mfold (fun l i => obind (vec_get cent i) (fun c => obind (vec_get d i) (fun cd => Ok (l ++ [(c, cd)])))) (idx_red 0 constrain) []) (fun l =>
  let e := if test then l ++ [(0%R, (0%R, 0%R))] else l in
  Ok (mk_prior (map fst e) (diag_mat (map (fun x => fst (snd x)) e)) constrain test (diag_mat (map (fun x => snd (snd x)) e)))).
(** FitScanner.cxx 252-277; with the test source all vectors have one more element, zero. *)
Definition update_diag (cent unc : list R) (has constrain : list bool) (test : bool) : outcome prior :=
  obind (diagonal unc has (length cent)) (fun d =>
  latchReducedDiagonal (if test then cent ++ [0%R] else cent) (if test then d ++ [(0%R, 0%R)] else d) constrain test).
(** FitScanner.cxx 279-285. *)
Definition get_uncertainties (p : prior) : outcome (list R) :=
  if dim (p_cov p) <? length (p_cent p) then UB else Ok (map (fun i => sqrt (el (p_cov p) i i)) (seq 0 (length (p_cent p)))).

(** FitScanner.cxx 223-227. *)
Definition logLikelihood (p : prior) (params : list R) : outcome R :=
  if negb (length params =? length (p_cent p)) then Throw else
  if negb (dim (p_hess p) =? length params) then Throw else
  Ok (- (1 / 2) * msum (dim (p_hess p)) (fun i => msum (dim (p_hess p)) (fun j =>
    (nth i params 0 - nth i (p_cent p) 0) * el (p_hess p) i j * (nth j params 0 - nth j (p_cent p) 0))))%R.
(** FitScanner.cxx 229-232. *)
Definition gradient (p : prior) (params : list R) : outcome (list R) :=
  if negb (length params =? length (p_cent p)) then Throw else
  if negb (dim (p_hess p) =? length params) then Throw else
  Ok (map (fun i => msum (dim (p_hess p)) (fun j => (el (p_hess p) i j * (nth j params 0 - nth j (p_cent p) 0))%R)) (seq 0 (length params))).

(** ** The priors of the cache *)
(** FitScanner.h:1184-1197. *)
Record cache := mk_cache {
  c_refs : list R;                       (** m_refValues, one for each source *)
  c_pars : list R; c_cov : mat;          (** m_currentPars, m_currentCov: the free sources, and the test source last *)
  c_has_test : bool;                     (** m_currentTestSourceIndex >= 0 *)
  c_full : option prior * option prior;  (** with the test source, without *)
  c_init : option prior * option prior;
  c_global : option prior * option prior;
  c_local : option prior * option prior }.
Definition nBkgModel (c : cache) : nat := length (c_refs c).
Definition set_full (c : cache) x := mk_cache (c_refs c) (c_pars c) (c_cov c) (c_has_test c) x (c_init c) (c_global c) (c_local c).
Definition set_init (c : cache) x := mk_cache (c_refs c) (c_pars c) (c_cov c) (c_has_test c) (c_full c) x (c_global c) (c_local c).
Definition set_global (c : cache) x := mk_cache (c_refs c) (c_pars c) (c_cov c) (c_has_test c) (c_full c) (c_init c) x (c_local c).
Definition set_local (c : cache) x := mk_cache (c_refs c) (c_pars c) (c_cov c) (c_has_test c) (c_full c) (c_init c) (c_global c) x.

(** FitUtils.cxx 1534-1567: mean and sigma of the priors of the normalisations (of a Gaussian; others are exceptions). *)
Definition extractPriors (ms : list (option (R * R))) : list R * list R * list bool :=
  (map (fun m => match m with Some (c, _) => c | None => 0%R end) ms,
   map (fun m => match m with Some (_, s) => s | None => 0%R end) ms,
   map (fun m => match m with Some _ => true | None => false end) ms).

(** FitScanner.cxx 1831-1873. *)
Definition small_ref : R := (1 / 10 ^ 15)%R.
Definition extract_init_priors_from_model (c : cache) (ms : list (option (R * R))) : outcome cache :=
  let '(cent, unc, has) := extractPriors ms in
  if existsb (fun b => b) has then
    obind (mfold (fun s i =>
      obind (vec_get (c_refs c) i) (fun r =>
      if Rltb r small_ref then obind (vec_set (snd s) i false) (fun h => Ok (fst s, h))
      else obind (vec_get (fst (fst s)) i) (fun cv => obind (vec_set (fst (fst s)) i (cv / r)%R) (fun cent =>
           obind (vec_get (snd (fst s)) i) (fun u => obind (vec_set (snd (fst s)) i (u / r)%R) (fun unc => Ok (cent, unc, snd s)))))))
      (seq 0 (length (c_refs c))) (cent, unc, has)) (fun s =>
    obind (update_diag (fst (fst s)) (snd (fst s)) (snd s) (repeat true (length has)) true) (fun t =>
    obind (update_diag (fst (fst s)) (snd (fst s)) (snd s) (repeat true (length has)) false) (fun b =>
    Ok (set_init (set_full c (Some t, Some b)) (None, None)))))
  else Ok (set_init (set_full c (None, None)) (None, None)).

(** FitScanner.cxx 1119-1149. *)
Definition refactorPrior (c : cache) (free : list bool) : outcome cache :=
  match snd (c_full c) with
  | None => Ok (set_init c (None, None))
  | Some f =>
    obind (get_uncertainties f) (fun unc =>
    obind (update_diag (p_cent f) unc (repeat true (length unc)) free false) (fun b =>
    obind (update_diag (p_cent f) unc (repeat true (length unc)) free true) (fun t =>
    Ok (set_init c (Some t, Some b)))))
  end.

(** FitScanner.cxx 1271-1301; line 1283 tests the pointer to the local prior.  Updating through a null pointer is
    undefined. *)
Definition buildPriorsFromExternal (c : cache) (cent : list R) (cov : mat) (constrain : list bool) (global : bool) : outcome cache :=
  if global then
    obind (update_cov cent cov constrain true) (fun t =>
    match snd (c_local c), snd (c_global c) with
    | Some _, None => UB
    | _, _ => obind (update_cov cent cov constrain false) (fun b => Ok (set_global c (Some t, Some b)))
    end)
  else
    obind (update_cov cent cov constrain true) (fun t =>
    obind (update_cov cent cov constrain false) (fun b => Ok (set_local c (Some t, Some b)))).

(** FitScanner.cxx 1319-1331. *)
Definition buildPriorsFromCurrent (c : cache) (constrain : list bool) (f : R) (global : bool) : outcome cache :=
  if negb (c_has_test c) then buildPriorsFromExternal c (c_pars c) (scaled f (c_cov c)) constrain global
  else if length (c_pars c) <? nBkgModel c then Throw else
  obind (block (c_cov c) (nBkgModel c)) (fun cov =>
  buildPriorsFromExternal c (firstn (nBkgModel c) (c_pars c)) (scaled f cov) constrain global).
End Inverse.

(** FitScanner.cxx 1616-1636. *)
Inductive version := Full_Prior | Init_Prior | Global_Prior | Local_Prior | No_Prior.
Definition getPrior (c : cache) (v : version) (test : bool) : option prior :=
  match v with
  | Full_Prior => if test then fst (c_full c) else snd (c_full c)
  | Init_Prior => if test then fst (c_init c) else snd (c_init c)
  | Global_Prior => if test then fst (c_global c) else snd (c_global c)
  | Local_Prior => if test then fst (c_local c) else snd (c_local c)
  | No_Prior => None
  end.

(** ** Errors *)
(** FitScanner.cxx 1542-1576: the status and the errors; [pos0], [neg0]: what the variables held before.  [cov], [grad],
    [par]: of the test source. *)
Definition signalUncertainty_quad (has_test : bool) (cov grad par delta pos0 neg0 : R) : outcome (Z * R * R) :=
  if negb has_test then Ok ((-1)%Z, (-1)%R, (-1)%R) else
  if Rltb (Rabs cov) (1 / 10 ^ 10) then
    if Reqb grad 0 then UB else Ok (Ztrunc (delta / grad), pos0, neg0)
  else
  let a := (1 / cov)%R in
  let det := (grad * grad + 4 * a * delta)%R in
  if Rltb det 0 then Ok ((-2)%Z, (-1)%R, (-1)%R) else
  let neg := ((grad + sqrt det) / (2 * a))%R in
  Ok (0%Z, ((- grad + sqrt det) / (2 * a))%R, if Rltb par neg then (-1)%R else neg).
(** FitUtils.cxx 504-506. *)
Definition symmetricError (pos neg : R) : R := if Rltb neg 0 then pos else ((pos + neg) / 2)%R.

(** ** Scans *)
Section Scan.
(** The fit of the other sources given the fixed part of the model and a prior: its status and log-likelihood; the
    log-likelihood of a model.  Both look at the bins of the current range only. *)
Variable fit : list R -> option prior -> Z * R.
Variable like : list R -> R.

(** FitUtils.cxx 265-289 as used in FitScanner.cxx 1487-1499: what the fixed part of the model is in the bins [first, last). *)
Definition fixed_temp (fixed target : list R) (first last : nat) (s : R) : outcome (list R) :=
  if (length fixed <? last) || (length target <? last) || (last <? first) then UB else
  Ok (map (fun i => if (first <=? i) && (i <? last) then (nth i fixed 0 + s * nth i target 0)%R else 0%R) (seq 0 (length fixed))).

(** FitScanner.cxx 1450-1456: lower end and step. *)
Definition scan_range (nnorm : nat) (mle normSigma posErr negErr : R) : R * R :=
  let lo := if Rltb negErr 0 then (1 / 10 ^ 10)%R else Rmax (1 / 10 ^ 10) (mle - normSigma * negErr) in
  let hi := if Rltb posErr 0 then (25 / 10 ^ 5)%R else Rmax (25 / 10 ^ 5) (mle + normSigma * posErr) in
  (lo, ((hi - lo) / (INR nnorm - 1))%R).

(** FitScanner.cxx 1482-1538, [n] values left; the entries after that of a fit that failed are not listed; [others]: whether there are other free sources; [target] is m_targetModel or,
    for reduced models, m_targetRedModel ([red]). *)
Fixpoint scan_loop (n : nat) (s step : R) (fixed target red : list R) (first last : nat) (others : bool) (bkg : option prior) (norms likes : list R) : outcome (Z * list R * list R) :=
  match n with
  | O => Ok (0%Z, norms, likes)
  | S n' =>
    obind (fixed_temp fixed target first last s) (fun ft =>
    if others then
      if Z.eqb (fst (fit ft bkg)) 0 then scan_loop n' (s + step)%R step fixed target red first last others bkg (norms ++ [s]) (likes ++ [snd (fit ft bkg)])
      else Ok (fst (fit ft bkg), norms ++ [s], likes)
    else if length red <? last then UB
    else scan_loop n' (s + step)%R step fixed target red first last others bkg (norms ++ [s]) (likes ++ [like ft]))
  end.

(** FitScanner.cxx 1438-1540; line 1518 always reads the reduced model, which is empty unless models are reduced. *)
Definition scanNormalization (c : cache) (fixed target : list R) (reduced : bool) (first last : nat) (nnorm : nat) (normSigma posErr negErr : R) : outcome (Z * list R * list R) :=
  if negb (c_has_test c) then Ok ((-1)%Z, [], []) else
  obind (vec_get (c_pars c) (length (c_pars c) - 1)) (fun mle =>
  scan_loop nnorm (fst (scan_range nnorm mle normSigma posErr negErr)) (snd (scan_range nnorm mle normSigma posErr negErr))
    fixed target (if reduced then target else []) first last (1 <? length (c_pars c)) (snd (c_local c)) [] []).
End Scan.

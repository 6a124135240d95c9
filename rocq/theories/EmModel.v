(** Model of src/OptEM.cxx (the fit by expectation maximisation), src/OneSourceFunc.cxx (the statistic of one
    source it maximises) and Likelihood/OneSourceFunc.h.

    A source is the list of its functions (Source::getSrcFuncs, a std::map, so in the order of their names), each
    with its parameters.  Its flux density at an event and its predicted counts are parameters of the model:
    functions of the values of its parameters.  Numbers are reals; a logarithm of a number that is not positive
    is NaN or infinite in C++ and is [UB] here.  Parameters have no bounds here.

    The optimizer (optimizers::Drmngb, another package) reaches the source only through
    OneSourceFunc::setFreeParamValues_, so all it can do is to leave some values in the free parameters; [opt]
    gives these values, for the number of the iteration, the number of the source, its weights and its present
    parameters.  An exception of the optimizer is caught (OptEM.cxx:70-79), the values it had set stay. *)
From Coq Require Import Reals.
From Verif Require Import Base AccumModel.
Local Open Scope R_scope.

(** ** optimizers::Parameter: the name, the value and the free flag. *)
Record param := mk_par { p_name : nat; p_val : R; p_free : bool }.
Definition set_val (p : param) (x : R) : param := mk_par (p_name p) x (p_free p).

(** ** OneSourceFunc *)

(** syncParams, OneSourceFunc.cxx:86-97. *)
Definition syncParams (s : list (list param)) : list param := concat s.

(** Function::setFreeParamValues_ (package optimizers): the free parameters, in order, take the values from the
    iterator.  Reading past the end of the values is undefined. *)
Fixpoint f_setFree (f : list param) (it : list R) : outcome (list param * list R) :=
  match f with
  | [] => Ok ([], it)
  | p :: f' =>
      if p_free p then
        match it with
        | [] => UB
        | x :: it' => obind (f_setFree f' it') (fun r => Ok (set_val p x :: fst r, snd r))
        end
      else obind (f_setFree f' it) (fun r => Ok (p :: fst r, snd r))
  end.
(** setFreeParamValues_, OneSourceFunc.cxx:99-109. *)
Fixpoint setFreeParamValues_ (s : list (list param)) (it : list R) : outcome (list (list param) * list R) :=
  match s with
  | [] => Ok ([], it)
  | f :: s' => obind (f_setFree f it) (fun r => obind (setFreeParamValues_ s' (snd r)) (fun r' => Ok (fst r :: fst r', snd r')))
  end.

(** Function::setParamValues_ (package optimizers): the same for all parameters. *)
Fixpoint f_setAll (f : list param) (it : list R) : outcome (list param * list R) :=
  match f with
  | [] => Ok ([], it)
  | p :: f' =>
      match it with
      | [] => UB
      | x :: it' => obind (f_setAll f' it') (fun r => Ok (set_val p x :: fst r, snd r))
      end
  end.
(** setParamValues_, OneSourceFunc.cxx:111-121. *)
Fixpoint setParamValues_ (s : list (list param)) (it : list R) : outcome (list (list param) * list R) :=
  match s with
  | [] => Ok ([], it)
  | f :: s' => obind (f_setAll f it) (fun r => obind (setParamValues_ s' (snd r)) (fun r' => Ok (fst r :: fst r', snd r')))
  end.

(** Function::setParam (package optimizers): replaces the parameter of that name, throws ParameterNotFound. *)
Fixpoint f_setParam (f : list param) (q : param) : outcome (list param) :=
  match f with
  | [] => Throw
  | p :: f' => if Nat.eqb (p_name p) (p_name q) then Ok (q :: f') else obind (f_setParam f' q) (fun r => Ok (p :: r))
  end.
(** The inner loop, OneSourceFunc.cxx:133-135: [n] times setParam(params[k]), k going on. *)
Fixpoint setParams_in (f : list param) (n : nat) (ps : list param) : outcome (list param * list param) :=
  match n with
  | O => Ok (f, ps)
  | S n' => match ps with [] => UB | q :: ps' => obind (f_setParam f q) (fun f' => setParams_in f' n' ps') end
  end.
Fixpoint setParams_out (s : list (list param)) (ps : list param) : outcome (list (list param)) :=
  match s with
  | [] => Ok []
  | f :: s' => obind (setParams_in f (length f) ps) (fun r => obind (setParams_out s' (snd r)) (fun t => Ok (fst r :: t)))
  end.
(** setParams, OneSourceFunc.cxx:123-138. *)
Definition setParams (s : list (list param)) (ps : list param) : outcome (list (list param)) :=
  if Nat.eqb (length ps) (length (syncParams s)) then setParams_out s ps else Throw.

(** m_weights == NULL ? 1.0 : ( *m_weights)[i], OneSourceFunc.cxx:47 and 74. *)
Definition weight (ws : option (list R)) (i : nat) : outcome R :=
  match ws with None => Ok 1 | Some l => vec_get l i end.

(** value, OneSourceFunc.cxx:41-65: [flux] is m_src->fluxDensity of an event, [npred] m_src->Npred(). *)
Definition value (epsw epsf : R) (flux : nat -> R) (npred : R) (nev : nat) (ws : option (list R)) : outcome R :=
  obind (mfold (fun val i =>
           obind (weight ws i) (fun w =>
           if Rltb epsw w then
             let q := flux i in
             if Rltb epsf (Rabs q) then (if Rltb 0 q then Ok (val + w * ln q) else UB)
             else Ok val
           else Ok val)) (seq 0 nev) 0)
        (fun val => Ok (val - npred)).

(** derivByParamImp, OneSourceFunc.cxx:67-84: [dflux] is m_src->fluxDensityDeriv, [dnpred] m_src->NpredDeriv. *)
Definition deriv (epsw epsf : R) (flux dflux : nat -> R) (dnpred : R) (nev : nat) (ws : option (list R)) : outcome R :=
  obind (mfold (fun d i =>
           obind (weight ws i) (fun w =>
           if Rltb epsw w then
             let q := flux i in
             if Rltb epsf (Rabs q) then Ok (d + w * dflux i / q) else Ok d
           else Ok d)) (seq 0 nev) 0)
        (fun d => Ok (d - dnpred)).

(** ** OptEM *)

(** chifunc, OptEM.cxx:99-113. *)
Definition chifunc (ndof : Z) : outcome R :=
  if Z.leb ndof 0 then Throw else
  if Z.ltb ndof 10 then Ok (- (2265 / 10000) + IZR ndof * (12719 / 10000 + IZR ndof * (- (97 / 10000))))
  else let x := (IZR (ndof - 255) / (1415951 / 10000)) in
       Ok (2657118 / 10000 + x * (1444737 / 10000 + x * (- (2998 / 10000) + x * (2429 / 10000 + x * (- (1234 / 10000)))))).

Section Em.
Variable flux : nat -> list R -> nat -> R.        (* source, values of its parameters, event *)
Variable npred : nat -> list R -> R.
Variable nev : nat.
Variable opt : nat -> nat -> list R -> list (list param) -> list R.

Definition values (s : list (list param)) : list R := map p_val (syncParams s).
Definition num_free (s : list (list param)) : nat := length (filter p_free (syncParams s)).

(** ( *Warray[i])[j] = x. *)
Definition w_set (W : list (list R)) (i j : nat) (x : R) : outcome (list (list R)) :=
  obind (vec_get W i) (fun r => obind (vec_set r j x) (fun r' => vec_set W i r')).
(** One event of the E step, OptEM.cxx:46-57. *)
Definition e_event (st : list (list (list param))) (W : list (list R)) (j : nat) : outcome (list (list R)) :=
  obind (mfold (fun wz i =>
           obind (vec_get st i) (fun s =>
           obind (w_set (fst wz) i j (flux i (values s) j)) (fun W' => Ok (W', snd wz + flux i (values s) j)))) (seq 0 (length st)) (W, 0))
        (fun wz =>
           mfold (fun W i =>
             if Rltb 0 (snd wz) then
               obind (vec_get W i) (fun r => obind (vec_get r j) (fun x => w_set W i j (x / snd wz)))
             else Ok W) (seq 0 (length st)) (fst wz)).
(** The E step, OptEM.cxx:45-57. *)
Definition e_step (st : list (list (list param))) (W : list (list R)) : outcome (list (list R)) :=
  mfold (e_event st) (seq 0 nev) W.

(** One source of the M step, OptEM.cxx:60-83, with the cut-offs of lines 63-64.  When no parameter is free
    chifunc throws inside the try block (71), so the optimizer is not called. *)
Definition m_source (it : nat) (W : list (list R)) (a : list (list (list param)) * R * nat) (i : nat) :
    outcome (list (list (list param)) * R * nat) :=
  let '(st, logL, nPar) := a in
  obind (vec_get st i) (fun s =>
  obind (vec_get W i) (fun ws =>
  obind (if Nat.ltb 0 (num_free s) then obind (setFreeParamValues_ s (opt it i ws s)) (fun r => Ok (fst r)) else Ok s) (fun s' =>
  obind (value (/ 100) (/ 10 ^ 20) (flux i (values s')) (npred i (values s')) nev (Some ws)) (fun v =>
  Ok (upd st i s', logL + v, (nPar + num_free s)%nat))))).
Definition m_step (it : nat) (st : list (list (list param))) (W : list (list R)) : outcome (list (list (list param)) * R * nat) :=
  mfold (m_source it W) (seq 0 (length st)) (st, 0, 0%nat).

(** One turn of the loop, OptEM.cxx:40-89; also whether to go on (90). *)
Definition turn (it : nat) (st : list (list (list param))) (W : list (list R)) (oldLogL : R) :
    outcome (list (list (list param)) * list (list R) * R * bool) :=
  obind (e_step st W) (fun W' =>
  obind (m_step it st W') (fun r =>
  let '(st', logL, nPar) := r in
  obind (chifunc (Z.of_nat nPar)) (fun c =>
  Ok (st', W', logL, Rltb (1 / 10 * c) (Rabs (logL - oldLogL)) || Reqb oldLogL 0)))).

(** The loop, OptEM.cxx:39-90, at most [fuel] turns; None: still running.  The result has the number of turns. *)
Fixpoint loop (fuel it : nat) (st : list (list (list param))) (W : list (list R)) (oldLogL : R) :
    option (outcome (list (list (list param)) * nat)) :=
  match fuel with
  | O => None
  | S fuel' =>
      match turn it st W oldLogL with
      | Ok (st', W', logL, true) => loop fuel' (S it) st' W' logL
      | Ok (st', _, _, false) => Some (Ok (st', S it))
      | Throw => Some Throw
      | UB => Some UB
      end
  end.

(** The object: m_sources, and of the base classes m_parameter (SourceModel) and m_npredValues (LogLike). *)
Record optem := mk_em { em_src : list (list (list param)); em_par : list param; em_np : list R }.
(** findMin, OptEM.cxx:23-97: Warray starts as zeros (31-34); m_parameter and m_npredValues are not touched. *)
Definition findMin (fuel : nat) (o : optem) : option (outcome (optem * nat)) :=
  match loop fuel 0 (em_src o) (map (fun _ => repeat 0 nev) (em_src o)) 0 with
  | None => None
  | Some (Ok (st', n)) => Some (Ok (mk_em st' (em_par o) (em_np o), n))
  | Some Throw => Some Throw
  | Some UB => Some UB
  end.

(** SourceModel::syncParams and LogLike::syncParams, SourceModel.cxx:404-415, LogLike.cxx:343-352: the lists are
    rebuilt from the sources. *)
Definition sync (o : optem) : optem :=
  mk_em (em_src o) (concat (map syncParams (em_src o)))
        (map (fun is => npred (fst is) (values (snd is))) (combine (seq 0 (length (em_src o))) (em_src o))).
(** LogLike::value as modelled in UnbinModel.v, LogLike.cxx:36-110, without energy bounds and priors: the
    predicted counts are those of m_npredValues (67-74). *)
Definition ll_value (o : optem) : outcome R :=
  obind (mfold (fun acc j =>
           let f := fold_right Rplus 0 (map (fun is => flux (fst is) (values (snd is)) j) (combine (seq 0 (length (em_src o))) (em_src o))) in
           if Rltb 0 f then Ok (acc + ln f) else UB) (seq 0 nev) 0)
        (fun d => Ok (d - fold_right Rplus 0 (em_np o))).
End Em.

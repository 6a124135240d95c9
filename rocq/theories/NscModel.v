(** Model of the scans of a normalisation: src/ScanUtils.cxx, with set_klims of the wrappers of a model
    (src/FitScanner.cxx:580-582, 904-916, Likelihood/BinnedLikelihood.h:205-210).

    Numbers are reals.  The likelihood as a function of the energy limits and of the parameters, the result of the
    optimizer and the uncertainties it reports are arbitrary functions. *)
From Coq Require Import Reals ZArith List Bool Arith.
From Verif Require Import Base AccumModel.
Import ListNotations.
Local Open Scope nat_scope.

(** A parameter of the model: the name of its source (names are only compared), is it the normalisation, value, is it
    free, bounds. *)
Record par := mk_par { pr_src : Z; pr_norm : bool; pr_val : R; pr_free : bool; pr_lo : R; pr_hi : R }.
Definition set_free (b : bool) (p : par) : par := mk_par (pr_src p) (pr_norm p) (pr_val p) b (pr_lo p) (pr_hi p).
(** optimizers::Parameter::setValue (external): an exception outside of the bounds. *)
Definition set_val (x : R) (p : par) : outcome par :=
  if Rltb x (pr_lo p) || Rltb (pr_hi p) x then Throw else Ok (mk_par (pr_src p) (pr_norm p) x (pr_free p) (pr_lo p) (pr_hi p)).

(** ** Freeing parameters *)
(** ScanUtils.cxx:28-36. *)
Definition freezeSourceParams (ps : list par) (n : Z) : list par :=
  map (fun p => if Z.eqb (pr_src p) n then set_free false p else p) ps.
(** ScanUtils.cxx:38-46; [names]: those of all sources. *)
Definition freezeAllParams (names : list Z) (ps : list par) : list par := fold_left freezeSourceParams names ps.
(** ScanUtils.cxx:47-55: an unknown source is a null pointer, dereferenced. *)
Definition freeNormalizations (names : list Z) (ps : list par) (free : list Z) (b : bool) : outcome (list par) :=
  mfold (fun ps n => if existsb (Z.eqb n) names
                     then Ok (map (fun p => if Z.eqb (pr_src p) n && pr_norm p then set_free b p else p) ps)
                     else UB) free ps.
(** ScanUtils.cxx:57-69: do nothing. *)
Definition constrainSourceNorms_valuesAndCovs (ps : list par) (srcs : list Z) (vals : list R) (covs : list (list R)) : list par := ps.
Definition constrainSourceNorms_current (ps : list par) (srcs : list Z) (covScale : R) : list par := ps.

(** ** Energy limits *)
(** FitScanner.cxx:904-916: the limits a component gets.  [table]: for every merged energy the index of it in each
    component, or -1. *)
Definition set_klims_summed (table : list (list Z)) (kmin kmax i : nat) : outcome (nat * nat) :=
  obind (vec_get table kmin) (fun row => obind (vec_get row i) (fun kmin_local =>
  obind (vec_get table kmin) (fun row' => obind (vec_get row' i) (fun kmax_local =>
  if (kmin_local <? 0)%Z || (kmax_local <? 0)%Z then Ok (0, 0) else Ok (Z.to_nat kmin_local, Z.to_nat kmax_local))))).

(** ** Scans *)
Section Scan.
(** Number of energies of the binned likelihood; its value for energy limits and parameter values. *)
Variable nebins : nat.
Variable like : nat -> nat -> list R -> R.
(** What the optimizer makes of the values of the parameters, and the uncertainties of the free ones. *)
Variable optimum : nat -> nat -> list par -> list R.
Variable uncertainty : nat -> nat -> list par -> list R.

(** Parameters and energy limits. *)
Record state := mk_state { st_pars : list par; st_kmin : nat; st_kmax : nat }.
(** BinnedLikelihood.h:205-210, FitScanner.cxx:580-582. *)
Definition set_klims (s : state) (kmin kmax : nat) : state := mk_state (st_pars s) kmin kmax.
(** BinnedLikelihood::value reads the counts of the energies up to the limit (BinnedLikelihood.cxx:558-560, 170-172). *)
Definition value (s : state) : outcome R :=
  if (st_kmin s <? st_kmax s) && (nebins <? st_kmax s) then UB else Ok (like (st_kmin s) (st_kmax s) (map pr_val (st_pars s))).
(** Optimizer::find_min, find_min_only. *)
Definition with_vals (ps : list par) (xs : list R) : list par :=
  map (fun pv => mk_par (pr_src (fst pv)) (pr_norm (fst pv)) (snd pv) (pr_free (fst pv)) (pr_lo (fst pv)) (pr_hi (fst pv))) (combine ps xs).
Definition find_min (s : state) : state := mk_state (with_vals (st_pars s) (optimum (st_kmin s) (st_kmax s) (st_pars s))) (st_kmin s) (st_kmax s).

(** The normalisation of a source: the place of it among the parameters. *)
Fixpoint norm_of (ps : list par) (n : Z) : option nat :=
  match ps with
  | [] => None
  | p :: ps' => if Z.eqb (pr_src p) n && pr_norm p then Some 0 else option_map S (norm_of ps' n)
  end.
Definition update (s : state) (i : nat) (f : par -> outcome par) : outcome state :=
  obind (vec_get (st_pars s) i) (fun p => obind (f p) (fun p' => obind (vec_set (st_pars s) i p') (fun ps =>
  Ok (mk_state ps (st_kmin s) (st_kmax s))))).

(** ScanUtils.cxx:103-111: an uncertainty is read for each free parameter. *)
Definition count_free (ps : list par) (unc : list R) : outcome nat :=
  mfold (fun nfree p => if pr_free p then obind (vec_get unc nfree) (fun _ => Ok (S nfree)) else Ok nfree) ps 0.

(** ScanUtils.cxx:125-130.  float(nnorms - 1) is taken to be exact; for nnorms = 1 the step is not used. *)
Fixpoint grid (lin_step scan_min : R) (n : nat) : list R :=
  match n with 0 => [] | S n' => scan_min :: grid lin_step (scan_min + lin_step)%R n' end.

(** ScanUtils.cxx:139-154: one value of the scan. *)
Definition scan_step (i nfree : nat) (s : state) (x : R) : outcome (state * R) :=
  obind (update s i (set_val x)) (fun s =>
  let s := if 1 <? nfree then find_min s else s in
  obind (value s) (fun v => Ok (s, v))).

Record scan := mk_scan { sc_norms : list R; sc_mle : R; sc_like : R; sc_likes : list R }.

(** ScanUtils.cxx:71-158; an unknown source is a null pointer, dereferenced. *)
Definition scan_norm_binned (s : state) (signal : Z) (kmin kmax nnorms : nat) : outcome (state * scan) :=
  match norm_of (st_pars s) signal with
  | None => UB
  | Some i =>
      obind (update (set_klims s kmin kmax) i (fun p => Ok (set_free true p))) (fun s =>
      let unc := uncertainty kmin kmax (st_pars s) in
      let s := find_min s in
      obind (count_free (st_pars s) unc) (fun nfree =>
      obind (value s) (fun like_mle =>
      obind (vec_get (st_pars s) i) (fun p =>
      obind (vec_get unc 0) (fun norm_err =>
      let norm_mle := pr_val p in
      let scan_min := Rmax (1 / 10 ^ 10) (norm_mle - 10 * norm_err) in
      let scan_max := Rmax (5 / 2) (norm_mle + 10 * norm_err) in
      let norms := grid ((scan_max - scan_min) / (INR nnorms - 1)) scan_min nnorms in
      obind (update s i (fun p => Ok (set_free false p))) (fun s =>
      obind (mfold (fun sl x => obind (scan_step i nfree (fst sl) x) (fun sv => Ok (fst sv, snd sl ++ [snd sv]))) norms (s, [])) (fun sl =>
      obind (update (fst sl) i (fun p => Ok (set_free true p))) (fun s =>
      Ok (s, mk_scan norms norm_mle like_mle (snd sl))))))))))
  end.

(** ScanUtils.cxx:160-189. *)
Definition sed_binned (s : state) (signal : Z) (nnorms : nat) : outcome (state * list scan) :=
  obind (mfold (fun sl ie => obind (scan_norm_binned (fst sl) signal ie (ie + 1) nnorms) (fun sc => Ok (fst sc, snd sl ++ [snd sc])))
           (seq 0 nebins) (s, [])) (fun sl =>
  Ok (set_klims (fst sl) 0 (nebins + 1), snd sl)).
End Scan.

(** Model of MeanPsf: the point spread function at one sky position averaged
    over an observation, its integral over a cone and its angular derivative
    (src/MeanPsf.cxx, Likelihood/MeanPsf.h).

    Doubles are real numbers.  [Resp] is a set of response functions;
    [aeff_exposure r e] stands for expCube().value(srcDir, Aeff(e, r), e) and
    [psf_exposure r s e] for expCube().value(srcDir, Psf(s, e, r), e), the
    livetime-weighted integrals that ExposureCube returns (Psf::value throws on
    a negative value; that path is not modelled here).  [bilinear] is
    st_facilities::Util::bilinear, which is not part of the code base. *)
From Coq Require Import Reals List.
From Verif Require Import Base AccumModel EvtModel.
Import ListNotations.
Local Open Scope R_scope.
Local Open Scope list_scope.

(** MeanPsf.cxx 287-296, createLogArray: zero, then [npts] points in equal
    logarithmic steps. *)
Definition createLogArray (xmin xmax : R) (npts : nat) : list R :=
  let xstep := ln (xmax / xmin) / (INR npts - 1) in
  0 :: map (fun i => xmin * exp (INR i * xstep)) (seq 0 npts).

(** MeanPsf.cxx 31-33: the shared grid of separations is filled by the first
    object that is built. *)
Definition fill_separations (cur : list R) : list R :=
  match cur with [] => createLogArray (1 / 10000) 70 400 | _ => cur end.

Definition rad (x : R) : R := x * PI / 180.

(** [v.back()] of a std::vector. *)
Definition back (l : list R) : outcome R :=
  match l with [] => UB | _ => vec_get l (length l - 1) end.

(** MeanPsf.cxx 123-129 and 168-176: integral from [t1] to [t] of the straight
    line through (t1, y1) and (t2, y2).  A vanishing interval gives NaN, UB here. *)
Definition segment (t1 t2 t y1 y2 : R) : outcome R :=
  if Reqb t1 t2 then UB else
  let slope := (y2 - y1) / (t2 - t1) in
  let intercept := y1 - t1 * slope in
  Ok (slope * (t * t - t1 * t1) / 2 + intercept * (t - t1)).

Section MeanPsf.
  Context {Resp : Type}.
  Variable aeff_exposure : Resp -> R -> R.
  Variable psf_exposure : Resp -> R -> R -> R.
  Variable bilinear : list R -> R -> list R -> R -> list R -> R.

  (** MeanPsf.h 128-140; the static s_separations is passed separately. *)
  Record mean_psf := mkMeanPsf {
    m_energies : list R;
    m_psfValues : list R;
    m_psfPeakValues : list R;
    m_partialIntegrals : list (list R);
    m_exposure : list R }.

  (** MeanPsf.cxx 62-74, computeExposure. *)
  Definition computeExposure (resps : list Resp) (energies : list R) : list R :=
    map (fun e => fold_left (fun value r => value + aeff_exposure r e) resps 0) energies.

  (** MeanPsf.cxx 34-53: the loops of init over energies and separations. *)
  Definition psf_loop (resps : list Resp) (energies exposure seps : list R) : outcome (list R) :=
    mfold (fun acc k =>
      mfold (fun acc j =>
        obind (vec_get seps j) (fun s =>
        obind (vec_get energies k) (fun e =>
        obind (vec_get exposure k) (fun x =>
        let value := fold_left (fun v r => v + psf_exposure r s e) resps 0 in
        Ok (acc ++ [if Rltb 0 x then value / x else 0])))))
        (seq 0 (length seps)) acc)
      (seq 0 (length energies)) [].

  (** MeanPsf.cxx 117-131: the running integral at one energy.  The grid is
      never empty here (size()-1 would wrap). *)
  Definition partial_row (seps psf : list R) (k : nat) : outcome (list R) :=
    mfold (fun acc j =>
      let index := (k * length seps + j)%nat in
      obind (vec_at seps j) (fun s1 =>
      obind (vec_at seps (j + 1)) (fun s2 =>
      obind (vec_at psf index) (fun p1 =>
      obind (vec_at psf (index + 1)) (fun p2 =>
      let theta1 := rad s1 in
      let theta2 := rad s2 in
      obind (segment theta1 theta2 theta2 (2 * PI * p1 * sin theta1) (2 * PI * p2 * sin theta2)) (fun value =>
      obind (back acc) (fun last =>
      Ok (acc ++ [last + value]))))))))
      (seq 0 (length seps - 1)) [0].

  (** MeanPsf.cxx 134-139: both arrays are divided by the last entry of the
      running integral, element by element, the divisor being read again in
      every pass. *)
  Definition normalise_row (seps : list R) (k : nat) (psf partial : list R) : outcome (list R * list R) :=
    mfold (fun st j =>
      let '(psf, partial) := st in
      let index := (k * length seps + j)%nat in
      obind (back partial) (fun t =>
      obind (vec_at psf index) (fun p =>
      let psf := upd psf index (p / t) in
      obind (back partial) (fun t =>
      obind (vec_get partial j) (fun q =>
      obind (vec_set partial j (q / t)) (fun partial =>
      Ok (psf, partial)))))))
      (seq 0 (length seps)) (psf, partial).

  (** MeanPsf.cxx 115-147, computePartialIntegrals. *)
  Definition computePartialIntegrals (energies seps psf : list R) : outcome (list R * list (list R)) :=
    mfold (fun st k =>
      let '(psf, partials) := st in
      obind (partial_row seps psf k) (fun partial =>
      obind (back partial) (fun t =>
      if Reqb t 0 then Ok (psf, partials ++ [partial])
      else obind (normalise_row seps k psf partial) (fun pp =>
           Ok (fst pp, partials ++ [snd pp])))))
      (seq 0 (length energies)) (psf, []).

  (** MeanPsf.cxx 76-91, operator(). *)
  Definition value (seps : list R) (m : mean_psf) (energy theta : R) : outcome R :=
    match m_energies m with
    | [] => Throw
    | front :: _ =>
        obind (back (m_energies m)) (fun last =>
        if (Rltb energy front || Rltb last energy)%bool then Ok 0 else
        obind (back seps) (fun smax =>
        if Rltb smax theta then Ok 0
        else Ok (bilinear (m_energies m) energy seps theta (m_psfValues m))))
    end.

  (** MeanPsf.cxx 29-60, init; the result carries the shared grid. *)
  Definition init (cur : list R) (resps : list Resp) (energies : list R) : outcome (mean_psf * list R) :=
    let exposure := computeExposure resps energies in
    let seps := fill_separations cur in
    obind (psf_loop resps energies exposure seps) (fun psf =>
    obind (computePartialIntegrals energies seps psf) (fun pp =>
    let m := mkMeanPsf energies (fst pp) [] (snd pp) exposure in
    obind (mfold (fun acc k =>
             obind (vec_get energies k) (fun e =>
             obind (value seps (mkMeanPsf energies (fst pp) acc (snd pp) exposure) e 0) (fun v =>
             Ok (acc ++ [v])))) (seq 0 (length energies)) []) (fun peaks =>
    Ok (mkMeanPsf energies (fst pp) peaks (snd pp) exposure, seps)))).

  (** MeanPsf.cxx 97-109, write: one line per separation, holding the
      separation and the value at every energy. *)
  Definition write (seps : list R) (m : mean_psf) : outcome (list (R * list R)) :=
    mfold (fun lines j =>
      obind (vec_get seps j) (fun s =>
      obind (mfold (fun row k => obind (vec_at (m_psfValues m) (k * length seps + j)) (fun p => Ok (row ++ [p])))
                   (seq 0 (length (m_energies m))) []) (fun row =>
      Ok (lines ++ [(s, row)]))))
      (seq 0 (length seps)) [].

  (** MeanPsf.cxx 166-177 and 184-189: the cone integral at grid energy [k]. *)
  Definition integral_at (seps : list R) (m : mean_psf) (k j : nat) (angle : R) : outcome R :=
    let index := (k * length seps + j)%nat in
    obind (vec_get seps j) (fun s1 =>
    obind (vec_get seps (j + 1)) (fun s2 =>
    obind (vec_at (m_psfValues m) index) (fun p1 =>
    obind (vec_at (m_psfValues m) (index + 1)) (fun p2 =>
    let theta1 := rad s1 in
    let theta2 := rad s2 in
    obind (segment theta1 theta2 (rad angle) (2 * PI * p1 * sin theta1) (2 * PI * p2 * sin theta2)) (fun value =>
    obind (vec_at (m_partialIntegrals m) k) (fun row =>
    obind (vec_at row j) (fun q => Ok (q + value)))))))).

  (** MeanPsf.cxx 149-195, integral.  [k] is unsigned: an energy below the
      first one wraps and is caught by the comparison.  Without energies the
      comparison is with the wrapped size()-1 and never holds, and the first
      at() throws. *)
  Definition integral (seps : list R) (m : mean_psf) (angle energy : R) : outcome R :=
    obind (std_upper_bound (m_energies m) energy) (fun u =>
    match u, m_energies m with
    | O, _ :: _ => Throw
    | _, _ =>
        obind (vec_get seps 0) (fun smin =>
        obind (back seps) (fun smax =>
        if Rltb angle smin then Ok 0 else if Rleb smax angle then Ok 1 else
        match u with
        | O => Throw
        | S k =>
            obind (std_upper_bound seps angle) (fun w =>
            let j := (w - 1)%nat in
            obind (integral_at seps m k j angle) (fun integral1 =>
            if (k =? length (m_energies m) - 1)%nat then Ok integral1 else
            obind (integral_at seps m (k + 1) j angle) (fun integral2 =>
            obind (vec_at (m_energies m) k) (fun e1 =>
            obind (vec_at (m_energies m) (k + 1)) (fun e2 =>
            if Reqb e1 e2 then UB else
            Ok ((energy - e1) / (e2 - e1) * (integral2 - integral1) + integral1))))))
        end))
    end).

  (** MeanPsf.cxx 234-253, derivative. *)
  Definition derivative (seps : list R) (m : mean_psf) (angle energy : R) : outcome R :=
    obind (std_upper_bound seps angle) (fun w =>
    obind (std_upper_bound (m_energies m) energy) (fun u =>
    match w, u with
    | O, _ => Throw
    | S j, _ =>
        if (length seps - 1 <=? j)%nat then Throw else
        match u with
        | O => Throw
        | S k =>
            let index := (k * length seps + j)%nat in
            obind (vec_at (m_psfValues m) (index + 1)) (fun p2 =>
            obind (vec_at (m_psfValues m) index) (fun p1 =>
            obind (vec_get seps (j + 1)) (fun s2 =>
            obind (vec_get seps j) (fun s1 =>
            if Reqb s1 s2 then UB else Ok ((p2 - p1) / (s2 - s1))))))
        end
    end)).
End MeanPsf.

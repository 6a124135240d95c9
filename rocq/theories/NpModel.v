(** Model of the predicted counts of a source and their derivatives: src/Source.cxx (Npred, NpredDeriv, pixelCounts, getExposureArrays),
    the flux integrals of Likelihood/Source.h, src/PointSource.cxx and src/DiffuseSource.cxx, the one-source likelihood of
    src/OneSourceFunc.cxx and the counts of a pixel of src/Pixel.cxx.  Numbers are real: no rounding; what would be not a number
    in the program is marked UB. *)
From Coq Require Import Reals String List Bool PeanoNat.
From Verif Require Import Base AccumModel TrapModel.
Import ListNotations.
Local Open Scope R_scope.
Local Open Scope list_scope.
Local Open Scope outcome_scope.

(** optimizers::Function (external): the names of the parameters, the value as a function of the parameter values and the energy,
    and what derivByParam returns for the parameter at a position *)
Record spectrum := { sp_names : list string; sp_val : list R -> R -> R; sp_der : list R -> nat -> R -> R }.
(** Likelihood/Source.h:330-340: the energy grid, the exposures on it and the spectrum with its parameter values *)
Record source := { s_spec : spectrum; s_par : list R; s_en : list R; s_ex : list R }.

Fixpoint find_name (n : string) (l : list string) : option nat :=
  match l with
  | [] => None
  | m :: l => if String.eqb m n then Some 0%nat else option_map S (find_name n l)
  end.
(** optimizers::Function::operator(), derivByParam and getParamValue (external): the last two throw ParameterNotFound *)
Definition spec_at (s : source) (e : R) : outcome R := Ok (sp_val (s_spec s) (s_par s) e).
Definition deriv_at (s : source) (name : string) (e : R) : outcome R :=
  match find_name name (sp_names (s_spec s)) with Some i => Ok (sp_der (s_spec s) (s_par s) i e) | None => Throw end.
Definition param_value (s : source) (name : string) : outcome R :=
  match find_name name (sp_names (s_spec s)) with Some i => vec_at (s_par s) i | None => Throw end.

(** src/Source.cxx:74-77, 130-133 and 150-154, Likelihood/Source.h:457-460: the products of a function of the energy and an array *)
Fixpoint integrand (f : R -> outcome R) (get : nat -> outcome R) (es : list R) (k : nat) : outcome (list R) :=
  match es with
  | [] => Ok []
  | e :: es => y <- f e ;; x <- get k ;; l <- integrand f get es (S k) ;; Ok (y * x :: l)
  end.
(** src/Source.cxx:66-82 *)
Definition npred (s : source) : outcome R :=
  ys <- integrand (spec_at s) (vec_get (s_ex s)) (s_en s) 0 ;; compute_log_integral (s_en s) ys.
(** src/Source.cxx:142-146 and 169-173: the derivative by "Prefactor" is the value over the prefactor, unless that is zero *)
Definition by_prefactor (s : source) (name : string) (value deriv : outcome R) : outcome R :=
  if String.eqb name "Prefactor"
  then pf <- param_value s name ;; if Reqb pf 0 then deriv else v <- value ;; Ok (v / pf)
  else deriv.
(** src/Source.cxx:138-157 *)
Definition npred_deriv (s : source) (name : string) : outcome R :=
  by_prefactor s name (npred s) (ys <- integrand (deriv_at s name) (vec_get (s_ex s)) (s_en s) 0 ;; compute_log_integral (s_en s) ys).

(** a cast of a double to size_t: the value without its fraction if that can be represented *)
Definition to_size (x : R) : outcome nat := if Rltb (-1) x && Rltb x (IZR (2 ^ 64)) then Ok (trunc_nat x) else UB.
(** src/Source.cxx:270-287: one pass of the loop.  The logarithms of the grid energies are not numbers unless these are positive. *)
Definition exposure_at (en ex : list R) (roi_estep logE : R) : outcome R :=
  kk <- to_size ((logE - ln (nth 0 en 0)) / roi_estep) ;;
  if (kk =? length en - 1)%nat then vec_get ex (length ex - 1)
  else x0 <- vec_at ex kk ;; e <- vec_at en kk ;; x1 <- vec_at ex (S kk) ;; Ok (x0 + (logE - ln e) / roi_estep * (x1 - x0)).
Fixpoint exposure_loop (en ex : list R) (roi_estep logestep lemin : R) (k n : nat) : outcome (list R * list R) :=
  match n with
  | 0%nat => Ok ([], [])
  | S n =>
      let logE := INR k * logestep + lemin in
      x <- exposure_at en ex roi_estep logE ;;
      r <- exposure_loop en ex roi_estep logestep lemin (S k) n ;;
      Ok (exp logE :: fst r, x :: snd r)
  end.
(** src/Source.cxx:248-288.  UB: front and back of an empty vector; a step of the grid that is not a positive or negative number
    (fewer than two energies, equal ends, an end that is not positive) or a step of the range that is not a number (one point, an
    upper limit that is not positive), since the cast is then applied to something that is not a number. *)
Definition exposure_arrays (s : source) (emin emax : R) (nee : nat) : outcome (list R * list R) :=
  let en := s_en s in
  match en with
  | [] => UB
  | front :: _ =>
      let back := last en 0 in
      let emin := if Rltb emin front then front else emin in
      let emax := if Rltb back emax then back else emax in
      if Reqb emin front && Reqb emax back then Ok (en, s_ex s)
      else
        let nee := if (nee =? 0)%nat then length en else nee in
        if Rltb 0 front && Rltb 0 back && negb (Reqb front back) && Rltb 0 emax && negb (nee =? 1)%nat
        then exposure_loop en (s_ex s) (ln (back / front) / INR (length en - 1)) (ln (emax / emin) / INR (nee - 1)) (ln emin) 0 nee
        else UB
  end.
(** src/Source.cxx:113-136 *)
Definition npred_range (s : source) (emin emax : R) : outcome R :=
  a <- exposure_arrays s emin emax 0 ;;
  ys <- integrand (spec_at s) (vec_at (snd a)) (fst a) 0 ;; compute_log_integral (fst a) ys.
(** src/Source.cxx:159-184 *)
Definition npred_deriv_range (s : source) (name : string) (emin emax : R) : outcome R :=
  a <- exposure_arrays s emin emax 0 ;;
  by_prefactor s name (npred_range s emin emax)
    (ys <- integrand (deriv_at s name) (vec_get (snd a)) (fst a) 0 ;; compute_log_integral (fst a) ys).

(** src/Source.cxx:209-225 and 227-246: the flag tells whether the environment asks for the linear rule *)
Definition cell_integral (linear : bool) (emin emax y1 y2 : R) : R :=
  if linear then (y1 + y2) * (emax - emin) / 2 else (y1 * emin + y2 * emax) / 2 * ln (emax / emin).
Definition pixel_counts (linear : bool) (s : source) (emin emax w1 w2 : R) : outcome R :=
  f1 <- spec_at s emin ;; f2 <- spec_at s emax ;; Ok (cell_integral linear emin emax (f1 * w1) (f2 * w2)).
Definition pixel_counts_deriv (linear : bool) (s : source) (emin emax w1 w2 : R) (name : string) : outcome R :=
  f1 <- deriv_at s name emin ;; f2 <- deriv_at s name emax ;; Ok (cell_integral linear emin emax (f1 * w1) (f2 * w2)).

(** Likelihood/Source.h:452-464, and src/TrapQuad.cxx:63-86 as called from src/PointSource.cxx:268-351 with the angular integral 1.
    [ang]: the integral of the image of the source over the sky at an energy (src/DiffuseSource.cxx:255-269, external). *)
Definition energy_integral (f : R -> outcome R) (ang : R -> R) (es : list R) : outcome R :=
  ys <- integrand f (fun k => Ok (ang (nth k es 0))) es 0 ;; compute_log_integral es ys.
(** Likelihood/Source.h:435-442, src/PointSource.cxx:283-289: the grid of a range.  With fewer than two points the quadrature below
    is out of bounds whatever the step is. *)
Definition log_grid (emin emax : R) (npts : nat) : list R :=
  let estep := ln (emax / emin) / INR (npts - 1) in map (fun k => emin * exp (estep * INR k)) (seq 0 npts).
(** which energies: those of the source or those of a range *)
Inductive energies_arg := Own | Range (emin emax : R) (npts : nat).
Definition grid_of (s : source) (a : energies_arg) : list R :=
  match a with Own => s_en s | Range a b n => log_grid a b n end.
(** src/PointSource.cxx:268-351, src/DiffuseSource.cxx:271-309; Likelihood/Source.h:351-425: the functors *)
Definition flux (s : source) (ang : R -> R) (a : energies_arg) : outcome R := energy_integral (spec_at s) ang (grid_of s a).
Definition flux_deriv (s : source) (ang : R -> R) (name : string) (a : energies_arg) : outcome R := energy_integral (deriv_at s name) ang (grid_of s a).
Definition energy_flux (s : source) (ang : R -> R) (a : energies_arg) : outcome R :=
  energy_integral (fun e => y <- spec_at s e ;; Ok (e * y)) ang (grid_of s a).
Definition energy_flux_deriv (s : source) (ang : R -> R) (name : string) (a : energies_arg) : outcome R :=
  energy_integral (fun e => y <- deriv_at s name e ;; Ok (e * y)) ang (grid_of s a).

(** an event: its energy and the response of the source to it (totalResponse or Event::diffuseResponse, external) *)
Record event := { ev_energy : R; ev_resp : R }.
(** src/PointSource.cxx:85-118 and src/DiffuseSource.cxx:129-157.  [edisp]: the response functions handle energy dispersion and the
    source is a point source, which is refused. *)
Definition flux_density (edisp : bool) (s : source) (ev : event) : outcome R :=
  if edisp then Throw else f <- spec_at s (ev_energy ev) ;; Ok (f * ev_resp ev).
(** src/PointSource.cxx:152-203 and src/DiffuseSource.cxx:159-196 *)
Definition flux_density_deriv (edisp : bool) (s : source) (ev : event) (name : string) : outcome R :=
  by_prefactor s name (flux_density edisp s ev)
    (if edisp then Throw else d <- deriv_at s name (ev_energy ev) ;; Ok (ev_resp ev * d)).

(** src/OneSourceFunc.cxx:19-31: the events, the optional weights and the two cut-offs *)
Record one_source := { o_edisp : bool; o_events : list event; o_weights : option (list R); o_epsw : R; o_epsf : R }.
Definition weight (o : one_source) (i : nat) : outcome R := match o_weights o with None => Ok 1 | Some w => vec_get w i end.
(** src/OneSourceFunc.cxx:41-63.  The logarithm of a flux that is not positive is not a number: UB. *)
Fixpoint osf_sum (o : one_source) (s : source) (evs : list event) (i : nat) (val : R) : outcome R :=
  match evs with
  | [] => Ok val
  | ev :: evs =>
      w <- weight o i ;;
      if Rltb (o_epsw o) w then
        q <- flux_density (o_edisp o) s ev ;;
        if Rltb (o_epsf o) (Rabs q) then (if Rltb 0 q then osf_sum o s evs (S i) (val + w * ln q) else UB)
        else osf_sum o s evs (S i) val
      else osf_sum o s evs (S i) val
  end.
Definition osf_value (o : one_source) (s : source) : outcome R :=
  val <- osf_sum o s (o_events o) 0 0 ;; bar <- npred s ;; Ok (val - bar).
(** src/OneSourceFunc.cxx:65-84.  A quotient by zero is not a number: UB. *)
Fixpoint osf_dsum (o : one_source) (s : source) (name : string) (evs : list event) (i : nat) (deriv : R) : outcome R :=
  match evs with
  | [] => Ok deriv
  | ev :: evs =>
      w <- weight o i ;;
      if Rltb (o_epsw o) w then
        q <- flux_density (o_edisp o) s ev ;;
        if Rltb (o_epsf o) (Rabs q) then
          v <- flux_density_deriv (o_edisp o) s ev name ;;
          if Reqb q 0 then UB else osf_dsum o s name evs (S i) (deriv + w * v / q)
        else osf_dsum o s name evs (S i) deriv
      else osf_dsum o s name evs (S i) deriv
  end.
Definition osf_deriv (o : one_source) (s : source) (name : string) : outcome R :=
  d <- osf_dsum o s name (o_events o) 0 0 ;; bar <- npred_deriv s name ;; Ok (d - bar).

Section Pixel.
(** directions (astro::SkyDir), their separation in degrees and the direction of coordinates, external *)
Context {dir : Type} (sepn : dir -> dir -> R) (radec : R -> R -> dir).
(** for the pixel at hand: the livetime cube applied to the response of a source at a separation, for an event type and an energy
    (ExposureCube::value of totalResponse, external); the cube is linear in the function it is given *)
Variable xresp : R -> nat -> R -> R.
(** a source of the model: its direction if it is a point source, its parameters, and the names of those that are free, in order *)
Record msource := { ms_dir : option dir; ms_src : source; ms_free : list string }.

(** src/Pixel.cxx:83-102 and src/PointSource.cxx:120-141 *)
Definition pixel_map (d : dir) (m : msource) (ty : nat) (e : R) : outcome R :=
  match ms_dir m with
  | None => Ok 0
  | Some sd => let sep := sepn sd d in if Rltb sep 90 then f <- spec_at (ms_src m) e ;; Ok (f * xresp (sepn d sd) ty e) else Ok 0
  end.
(** src/Pixel.cxx:104-127 and src/PointSource.cxx:205-238.  In the shortcut for "Prefactor" the separation is given where a direction is
    expected, so it is converted to the direction with that right ascension and declination 0. *)
Definition pixel_dmap (d : dir) (m : msource) (name : string) (ty : nat) (e : R) : outcome R :=
  match ms_dir m with
  | None => Ok 0
  | Some sd =>
      let sep := sepn sd d in
      if Rltb sep 90 then
        let separation := sepn d sd in
        by_prefactor (ms_src m) name
          (f <- spec_at (ms_src m) e ;; Ok (f * xresp (sepn (radec separation 0) sd) ty e))
          (dv <- deriv_at (ms_src m) name e ;; Ok (xresp separation ty e * dv))
      else Ok 0
  end.
(** src/Pixel.cxx:16-44: [types] are the identifiers of the response functions, [omega] the solid angle *)
Definition model_counts (d : dir) (omega : R) (types : list nat) (emin emax : R) (model : list msource) : outcome R :=
  mfold (fun acc m => mfold (fun acc ty =>
    lo <- pixel_map d m ty emin ;; hi <- pixel_map d m ty emax ;;
    Ok (acc + (lo * emin + hi * emax) / 2 * omega * ln (emax / emin))) types acc) model 0.
(** src/Pixel.cxx:46-81: [nfree] is what SourceModel::getNumFreeParams returns; the vector is resized, not cleared *)
Definition free_derivs (d : dir) (omega : R) (types : list nat) (nfree : nat) (emin emax : R) (model : list msource) (derivs : list R) : outcome (list R) :=
  r <- mfold (fun st m => mfold (fun st name =>
         ds <- mfold (fun ds ty =>
           m1 <- pixel_dmap d m name ty emin ;; m2 <- pixel_dmap d m name ty emax ;;
           old <- vec_at ds (snd st) ;; Ok (upd ds (snd st) (old + (m1 + m2) / 2 * omega * (emax - emin)))) types (fst st) ;;
         Ok (ds, S (snd st))) (ms_free m) st) model (vec_resize derivs nfree 0, 0%nat) ;;
  Ok (fst r).
End Pixel.

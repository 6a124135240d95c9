(** Model of counts spectra: src/CountsSpectra.cxx, BinnedCountsCache::computeCountsSpectrum_wcs and _healpix
    (src/BinnedCountsCache.cxx:170-209) and BinnedLikelihood::countsSpectrum (src/BinnedLikelihood.cxx:935-966).

    Numbers are reals.  What a source predicts between two energies, its flux between two energies, and the spectra a
    binned likelihood keeps are arbitrary.  The table files are lists of extensions; the columns of a table are taken to be
    distinct (no source is called "ObsCounts"). *)
From Coq Require Import Reals String List Bool Arith.
From Verif Require Import Base AccumModel EvtModel.
Import ListNotations.
Local Open Scope string_scope.
Local Open Scope list_scope.
Local Open Scope nat_scope.

(** CountsSpectra.h:38-46: is it made for a BinnedLikelihood; the energy bounds. *)
Record spectra := mk_spectra { cs_binned : bool; cs_ebounds : list R }.
(** CountsSpectra.h:38-46; [energies]: those of a binned likelihood. *)
Definition new_spectra (energies : option (list R)) : spectra :=
  match energies with Some es => mk_spectra true es | None => mk_spectra false [] end.

(** CountsSpectra.cxx:23-35.  With nbounds = 0 the loop runs to 2^64 - 1, until memory ends: an exception.  With
    nbounds = 1 the step is a division by zero and not used. *)
Definition setEbounds (c : spectra) (emin emax : R) (nbounds : nat) : outcome spectra :=
  if cs_binned c then Throw
  else match nbounds with
       | 0 => Throw
       | S n => let estep := (ln (emax / emin) / (INR nbounds - 1))%R in
                Ok (mk_spectra false (map (fun k => (emin * exp (INR k * estep))%R) (seq 0 n) ++ [emax]))
       end.

Section Spectra.
(** SourceModel::sources: the names in order, and whether it is a point source. *)
Variable sources : list (string * bool).
(** Source::Npred(emin, emax), PointSource::flux(emin, emax). *)
Variables npred flux : string -> R -> R -> R.
(** BinnedLikelihood::modelCountsSpectrum and countsSpectrum(). *)
Variable mcounts : string -> list R.
Variable dcounts : list R.
(** EventContainer. *)
Variable events : list nevent.

Definition lookup (n : string) : option bool := option_map snd (find (fun p => String.eqb n (fst p)) sources).

(** One value per interval of consecutive bounds; at() throws. *)
Definition per_bin (eb : list R) (f : R -> R -> R) : outcome (list R) :=
  mfold (fun l k => obind (vec_at eb k) (fun a => obind (vec_at eb (k + 1)) (fun b => Ok (l ++ [f a b]))))
    (seq 0 (length eb - 1)) [].

(** CountsSpectra.cxx:37-62; reserve(size() - 1) throws for no bounds. *)
Definition getSrcCounts (c : spectra) (n : string) : outcome (list R) :=
  match lookup n with
  | None => Throw
  | Some _ => match cs_ebounds c with
              | [] => Throw
              | _ => if cs_binned c then Ok (mcounts n) else per_bin (cs_ebounds c) (npred n)
              end
  end.

(** CountsSpectra.cxx:64-85. *)
Definition getSrcFluxes (c : spectra) (n : string) : outcome (list R) :=
  match cs_ebounds c with
  | [] => Throw
  | _ => match lookup n with
         | Some true => per_bin (cs_ebounds c) (flux n)
         | _ => Throw
         end
  end.

(** CountsSpectra.cxx:98-101. *)
Definition add_component (tot comp : list R) : outcome (list R) :=
  mfold (fun s j => obind (vec_get s j) (fun x => obind (vec_get comp j) (fun y => vec_set s j (x + y)%R)))
    (seq 0 (length comp)) tot.
(** CountsSpectra.cxx:87-104. *)
Definition getTotalSrcCounts (c : spectra) : outcome (list R) :=
  match map fst sources with
  | [] => Ok []
  | n0 :: ns => obind (getSrcCounts c n0) (fun s0 =>
      mfold (fun s n => obind (getSrcCounts c n) (fun comp => add_component s comp)) ns s0)
  end.

(** CountsSpectra.cxx:208-215, 217-221. *)
Definition getObsCounts (c : spectra) : outcome (list R) :=
  if cs_binned c then Ok dcounts
  else match cs_ebounds c with [] => Throw | _ => nobs (cs_ebounds c) None events end.

(** A table of a file: its name, its columns, its rows. *)
Record ext := mk_ext { x_name : string; x_cols : list string; x_rows : list (list R) }.

(** [mapM f l]. *)
Definition collect {A B} (f : A -> outcome B) (l : list A) : outcome (list B) :=
  mfold (fun acc a => obind (f a) (fun b => Ok (acc ++ [b]))) l [].

(** CountsSpectra.cxx:117-149.  A table whose writing fails stays in the file; its columns and rows are not modelled. *)
Definition writeCounts (c : spectra) : ext * outcome unit :=
  let r := obind (getObsCounts c) (fun obs =>
           obind (collect (getSrcCounts c) (map fst sources)) (fun cnts =>
           match cs_ebounds c with
           | [] => UB
           | _ => collect (fun k => obind (vec_at obs k) (fun o =>
                    obind (collect (fun v => vec_at v k) cnts) (fun l => Ok (o :: l)))) (seq 0 (length (cs_ebounds c) - 1))
           end)) in
  match r with
  | Ok rows => (mk_ext "COUNTS_SPECTRA" ("ObsCounts" :: map fst sources) rows, Ok tt)
  | Throw => (mk_ext "COUNTS_SPECTRA" [] [], Throw)
  | UB => (mk_ext "COUNTS_SPECTRA" [] [], UB)
  end.

(** CountsSpectra.cxx:151-185. *)
Definition writeFluxes (c : spectra) : ext * outcome unit :=
  let points := map fst (filter snd sources) in
  let r := obind (collect (getSrcFluxes c) points) (fun fl =>
           if length fl =? 0 then Ok []
           else collect (fun k => collect (fun v => vec_at v k) fl) (seq 0 (length (cs_ebounds c) - 1))) in
  match r with
  | Ok rows => (mk_ext "FLUXES" points rows, Ok tt)
  | Throw => (mk_ext "FLUXES" [] [], Throw)
  | UB => (mk_ext "FLUXES" [] [], UB)
  end.

(** CountsSpectra.cxx:187-206; for no bounds it is not reached. *)
Definition writeEbounds (c : spectra) : ext * outcome unit :=
  match collect (fun k => obind (vec_at (cs_ebounds c) k) (fun a => obind (vec_at (cs_ebounds c) (k + 1)) (fun b => Ok [a; b])))
          (seq 0 (length (cs_ebounds c) - 1)) with
  | Ok rows => (mk_ext "EBOUNDS" ["E_MIN"; "E_MAX"] rows, Ok tt)
  | Throw => (mk_ext "EBOUNDS" [] [], Throw)
  | UB => (mk_ext "EBOUNDS" [] [], UB)
  end.

(** CountsSpectra.cxx:106-115: the file of that name, before and after. *)
Definition writeTable (c : spectra) (old : option (list ext)) : option (list ext) * outcome unit :=
  let (x1, o1) := writeCounts c in
  match o1 with
  | Ok _ => let (x2, o2) := writeFluxes c in
            match o2 with
            | Ok _ => let (x3, o3) := writeEbounds c in (Some [x1; x2; x3], o3)
            | _ => (Some [x1; x2], o2)
            end
  | _ => (Some [x1], o1)
  end.
End Spectra.

(** ** The data of a binned likelihood *)

(** BinnedCountsCache.cxx:170-191: the loops run on one index. *)
Definition computeCountsSpectrum_wcs (nx ny nz : nat) (data : list R) : outcome (list R) :=
  obind (mfold (fun st _ =>
    obind (mfold (fun st _ => mfold (fun st _ => obind (vec_get data (snd st)) (fun x => Ok ((fst st + x)%R, snd st + 1)))
                                (seq 0 nx) st) (seq 0 ny) (0%R, snd st)) (fun tn =>
    Ok (fst st ++ [fst tn], snd tn))) (seq 0 nz) ([], 0)) (fun st => Ok (fst st)).
(** BinnedCountsCache.cxx:193-209; [nx] pixels, [ny] energies. *)
Definition computeCountsSpectrum_healpix (nx ny : nat) (data : list R) : outcome (list R) :=
  obind (mfold (fun st _ =>
    obind (mfold (fun st _ => obind (vec_get data (snd st)) (fun x => Ok ((fst st + x)%R, snd st + 1))) (seq 0 nx) (0%R, snd st)) (fun tn =>
    Ok (fst st ++ [fst tn], snd tn))) (seq 0 ny) ([], 0)) (fun st => Ok (fst st)).

(** The filled pixels of all energies, one energy after the other; where each energy starts; the counts map; pixels per
    energy (BinnedCountsCache). *)
Record cache := mk_cache { c_first : list nat; c_filled : list nat; c_data : list R; c_npix : nat; c_nebins : nat }.

(** BinnedLikelihood.cxx:577-591: the model outside of the energy limits is zero. *)
Definition current_model (d : cache) (kmin kmax : nat) (counts : list R) : outcome (list R) :=
  mfold (fun m k => obind (vec_get (c_first d) k) (fun j0 => obind (vec_get (c_first d) (k + 1)) (fun j1 =>
      mfold (fun m j => obind (vec_get counts j) (fun x => vec_set m j x)) (seq j0 (j1 - j0)) m)))
    (seq kmin (kmax - kmin)) (repeat 0%R (length (c_filled d))).

(** BinnedLikelihood.cxx:935-966; [model] is m_model, [counts] what addSourceCounts gives for the source.  A division by
    zero gives an infinity or no number: marked UB. *)
Definition countsSpectrum (d : cache) (lim_min lim_max : nat) (use_klims : bool) (model counts : list R) : outcome (list R) :=
  let kmin := if use_klims then lim_min else 0 in
  let kmax := if use_klims then lim_max else c_nebins d in
  if kmax <? kmin then Throw
  else mfold (fun out k => obind (vec_get (c_first d) k) (fun j0 => obind (vec_get (c_first d) (k + 1)) (fun j1 =>
         mfold (fun out j => obind (vec_get counts j) (fun x => obind (vec_get model j) (fun m =>
           if Reqb m 0 then UB
           else obind (vec_get (c_filled d) j) (fun ip => obind (vec_get (c_data d) (k * c_npix d + ip)) (fun n =>
                obind (vec_get out (k - kmin)) (fun o => vec_set out (k - kmin) (o + x / m * n)%R))))))
           (seq j0 (j1 - j0)) out)))
         (seq kmin (kmax - kmin)) (repeat 0%R (kmax - kmin)).

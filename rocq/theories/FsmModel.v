(** Model of how the fit scanner merges the components of a SummedLikelihood into
    one energy grid and one vector of pixels (src/FitScanner.cxx:585-718,
    [FitScanModelWrapper_Summed]).

    Simplifications.  Energies are real numbers.  What is merged (counts, model
    counts, weights) is only copied, so it has any type.  A local bin index of -1
    is [None].  Component [j] of [m_summedLike] is position [j] of the lists. *)
From Verif Require Import Base AccumModel.
From Coq Require Import Reals.
Open Scope R_scope.

(** The first loop of findMinAndMatches, FitScanner.cxx:590-599: the lowest energy
    not used yet and whether there is one. *)
Fixpoint scan_min (bins : list (list R)) (idx : list nat) (low : R) (found : bool) : outcome (R * bool) :=
  match idx, bins with
  | [], _ => Ok (low, found)
  | _ :: _, [] => UB
  | i :: idx', e :: bins' =>
      match nth_error e i with
      | None => scan_min bins' idx' low found
      | Some v => if Rltb v low then scan_min bins' idx' v true else scan_min bins' idx' low found
      end
  end.
(** The second loop, FitScanner.cxx:605-615: the new local indices and the matches. *)
Fixpoint tag_matches (bins : list (list R)) (idx : list nat) (low tol : R) : outcome (list nat * list (option nat)) :=
  match idx, bins with
  | [], _ => Ok ([], [])
  | _ :: _, [] => UB
  | i :: idx', e :: bins' =>
      obind (tag_matches bins' idx' low tol) (fun r =>
      match nth_error e i with
      | None => Ok (i :: fst r, None :: snd r)
      | Some v =>
          if Rltb (Rabs (low - v)) tol
          then Ok (S i :: fst r, (if Nat.ltb (i + 1) (length e) then Some i else None) :: snd r)
          else Ok (i :: fst r, None :: snd r)
      end)
  end.
(** findMinAndMatches, FitScanner.cxx:585-617: the value returned, localIdx and
    matches. *)
Definition findMinAndMatches (bins : list (list R)) (idx : list nat) (matches : list (option nat)) (tol : R)
  : outcome (R * list nat * list (option nat)) :=
  obind (scan_min bins idx (IZR (10 ^ 32)) false) (fun lf =>
  if snd lf
  then obind (tag_matches bins idx (fst lf) tol) (fun r => Ok (fst lf, fst r, snd r))
  else Ok (-1, idx, matches)).

(** The loop that merges the energy bins, FitScanner.cxx:692-699: m_energiesMerged
    and m_energyBinLocal.  [None]: the loop has not ended after [fuel] turns. *)
Fixpoint merge_loop (fuel : nat) (bins : list (list R)) (tol : R) (idx : list nat) (matches : list (option nat)) (next : R)
    (energies : list R) (rows : list (list (option nat))) : option (outcome (list R * list (list (option nat)))) :=
  if Rleb 0 next then
    match fuel with
    | O => None
    | S fuel' =>
        match findMinAndMatches bins idx matches tol with
        | Ok (next', idx', matches') =>
            if Rltb 0 next'
            then merge_loop fuel' bins tol idx' matches' next' (energies ++ [next']) (rows ++ [matches'])
            else merge_loop fuel' bins tol idx' matches' next' energies rows
        | Throw => Some Throw
        | UB => Some UB
        end
    end
  else Some (Ok (energies, rows)).
(** FitScanner.cxx:690-699, with the default tolerance argument of findMinAndMatches
    (FitScanner.h:631) as a parameter. *)
Definition merge_energies (fuel : nat) (bins : list (list R)) (tol : R) : option (outcome (list R * list (list (option nat)))) :=
  merge_loop fuel bins tol (repeat 0%nat (length bins)) (repeat None (length bins)) 0 [] [].

(** The inner loop of FitScanner.cxx:704-710: pixels in one layer. *)
Fixpoint layer_pixels (npix : list nat) (row : list (option nat)) (sum : nat) : outcome nat :=
  match npix, row with
  | [], _ => Ok sum
  | _ :: _, [] => UB
  | n :: npix', o :: row' => layer_pixels npix' row' (match o with None => sum | Some _ => (sum + n)%nat end)
  end.
(** [energyBinLocal.size()-1] rows: FitScanner.cxx:701-702 and 627.  With no row at
    all the size wraps around: resize throws std::length_error. *)
Definition used_rows (rows : list (list (option nat))) : outcome (list (list (option nat))) :=
  match rows with [] => Throw | _ => Ok (removelast rows) end.
(** m_nPixelsByLayer, FitScanner.cxx:701-711. *)
Definition nPixelsByLayer (npix : list nat) (rows : list (list (option nat))) : outcome (list nat) :=
  obind (used_rows rows) (fun rs =>
  mfold (fun acc row => obind (layer_pixels npix row 0) (fun n => Ok (acc ++ [n])%list)) rs []).

(** [std::copy(first, first+n, out)] reading [v] from [at_] on and writing from [w] on. *)
Definition copy_block {A} (v : list A) (at_ n : nat) (out : list A) (w : nat) : outcome (list A) :=
  if (Nat.leb (at_ + n) (length v) && Nat.leb (w + n) (length out))%bool
  then Ok (firstn w out ++ firstn n (skipn at_ v) ++ skipn (w + n) out)%list
  else UB.
(** The loop over components of mergeVectors, FitScanner.cxx:629-643: the output and
    the write position. *)
Fixpoint merge_row {A} (toMerge : list (list A)) (npix : list nat) (row : list (option nat)) (st : list A * nat)
  : outcome (list A * nat) :=
  match npix with
  | [] => Ok st
  | n :: npix' =>
      match row, toMerge with
      | None :: row', _ :: toMerge' => merge_row toMerge' npix' row' st
      | Some b :: row', v :: toMerge' =>
          obind (copy_block v (b * n) n (fst st) (snd st)) (fun out => merge_row toMerge' npix' row' (out, (snd st + n)%nat))
      | _, _ => UB
      end
  end.
(** mergeVectors, FitScanner.cxx:619-645. *)
Definition mergeVectors {A} (toMerge : list (list A)) (npix : list nat) (rows : list (list (option nat))) (merged : list A)
  : outcome (list A) :=
  obind (used_rows rows) (fun rs =>
  obind (mfold (fun st row => merge_row toMerge npix row st) rs (merged, 0%nat)) (fun st => Ok (fst st))).

(** m_sizeByComp and nSizeTot, FitScanner.cxx:678-684 (every component has at least
    one energy). *)
Fixpoint sizeTot (bins : list (list R)) (npix : list nat) : nat :=
  match bins, npix with e :: bins', n :: npix' => (n * (length e - 1) + sizeTot bins' npix')%nat | _, _ => 0%nat end.
(** m_localData, FitScanner.cxx:713-717; extractModels and extractModelFromSource
    fill their vectors in the same way (737-739, 800-820). *)
Definition localData {A} (zero : A) (bins : list (list R)) (npix : list nat) (rows : list (list (option nat)))
    (toMerge : list (list A)) : outcome (list A) :=
  mergeVectors toMerge npix rows (repeat zero (sizeTot bins npix)).

(** FitScanModelWrapper_Summed::set_klims, FitScanner.cxx:904-916: the limits given
    to component [j]. *)
Definition set_klims (rows : list (list (option nat))) (kmin kmax j : nat) : outcome (nat * nat) :=
  obind (vec_get rows kmin) (fun r1 => obind (vec_get r1 j) (fun kmin_local =>
  obind (vec_get rows kmin) (fun r2 => obind (vec_get r2 j) (fun kmax_local =>
  match kmin_local, kmax_local with
  | Some a, Some b => Ok (a, b)
  | _, _ => Ok (0, 0)%nat
  end)))).

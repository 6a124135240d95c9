(** Model of the Poisson log-likelihood and of the compressed ("reduced")
    representation of data, models and weights: src/FitUtils.cxx 1572-1865 and
    the energy-bin bookkeeping of src/FitScanner.cxx.

    Numbers are reals: float/double rounding is not modelled, [std::log] is [ln]
    and is only applied to positive arguments.  Bin indices are unbounded (the
    code stores them in an int). *)
From Coq Require Import Reals.
From Verif Require Import Base AccumModel VecModel.
Local Open Scope R_scope.

(** The literal 1e-9 of FitUtils.cxx:1814 and 1857. *)
Definition eps_data : R := / 10 ^ 9.
(** The literal 1e-15 of FitUtils.cxx:1625 and 1653. *)
Definition eps_zero : R := / 10 ^ 15.

(** FitUtils.cxx:1807-1821: the loop of the unweighted log-likelihood. *)
Fixpoint pois_loop (data model : list R) (nPred logTerm : R) : outcome R :=
  match data, model with
  | d :: data', m :: model' =>
      if Rltb m 0 then Throw
      else let nPred' := nPred + m in
           if Rltb eps_data d
           then if Rleb m 0 then Throw else pois_loop data' model' nPred' (logTerm + d * ln m)
           else pois_loop data' model' nPred' logTerm
  | [], _ => Ok (logTerm - nPred)
  | _ :: _, [] => UB
  end.
(** FitUtils.cxx:1790-1822. *)
Definition logLikePoisson (data model : list R) : outcome R :=
  if negb (length data =? length model)%nat then Throw else pois_loop data model 0 0.

(** FitUtils.cxx:1849-1864: the weighted loop. *)
Fixpoint poisw_loop (data model w : list R) (nPred logTerm : R) : outcome R :=
  match data, model, w with
  | d :: data', m :: model', wt :: w' =>
      if Rltb m 0 then Throw
      else let nPred' := nPred + m * wt in
           let dw := d * wt in
           if Rltb eps_data dw
           then if Rleb m 0 then Throw else poisw_loop data' model' w' nPred' (logTerm + dw * ln m)
           else poisw_loop data' model' w' nPred' logTerm
  | [], _, _ => Ok (logTerm - nPred)
  | _, _, _ => UB
  end.
(** FitUtils.cxx:1824-1865. *)
Definition logLikePoissonW (data model w : list R) : outcome R :=
  if negb (length data =? length model)%nat then Throw
  else if negb (length data =? length w)%nat then Throw
  else poisw_loop data model w 0 0.

(** What extractNonZeroBins fills: bin list, reduced data, end of each layer in
    the reduced vectors. *)
Record reduced := mk_red { r_bins : list Z; r_data : list R; r_stops : list nat }.
Definition push_bin (r : reduced) (b : Z) (d : R) : reduced :=
  mk_red (r_bins r ++ [b]) (r_data r ++ [d]) (r_stops r).
Definition push_stop (r : reduced) : reduced :=
  mk_red (r_bins r) (r_data r) (r_stops r ++ [length (r_data r)]).
(** FitUtils.cxx:1633-1637 and 1662-1666: the placeholder after bin [i]. *)
Definition push_placeholder (r : reduced) (i : nat) : reduced :=
  push_stop (push_bin r (- Z.of_nat (i + 1)) 0).

(** FitUtils.cxx:1626-1638; [x % 0] is undefined. *)
Fixpoint ext_loop (npix : nat) (i : nat) (data : list R) (r : reduced) : outcome reduced :=
  match data with
  | [] => Ok r
  | d :: data' =>
      let r1 := if Rltb eps_zero d then push_bin r (Z.of_nat i) d else r in
      if (npix =? 0)%nat then UB
      else let r2 := if ((i + 1) mod npix =? 0)%nat then push_placeholder r1 i else r1 in
           ext_loop npix (S i) data' r2
  end.
(** FitUtils.cxx:1614-1639. *)
Definition extractNonZeroBins (data : list R) (npix : nat) : outcome reduced :=
  ext_loop npix 0 data (mk_red [] [] []).

(** FitUtils.cxx:1654-1668. *)
Fixpoint extl_loop (firstPix : list nat) (ilayer i : nat) (data : list R) (r : reduced) : outcome reduced :=
  match data with
  | [] => Ok r
  | d :: data' =>
      let r1 := if Rltb eps_zero d then push_bin r (Z.of_nat i) d else r in
      obind (vec_get firstPix ilayer) (fun fp =>
      if (i + 1 =? fp)%nat then extl_loop firstPix (S ilayer) (S i) data' (push_placeholder r1 i)
      else extl_loop firstPix ilayer (S i) data' r1)
  end.
(** FitUtils.cxx:1642-1669. *)
Definition extractNonZeroBinsByLayer (data : list R) (firstPix : list nat) : outcome reduced :=
  extl_loop firstPix 1 0 data (mk_red [] [] []).

(** FitUtils.cxx:1694-1697: advance to bin [i + n], summing the skipped model bins. *)
Fixpoint sum_to (model : list R) (i n : nat) (z : R) : outcome R :=
  match n with
  | 0%nat => Ok z
  | S n' => obind (vec_get model i) (fun x => sum_to model (S i) n' (z + x))
  end.
(** FitUtils.cxx:1686-1709. *)
Fixpoint sp_loop (bins : list Z) (model : list R) (i : nat) (z : R) : outcome (list R) :=
  match bins with
  | [] => Ok []
  | b :: bs =>
      let next := Z.to_nat (Z.abs b) in
      obind (sum_to model i (next - i) z) (fun z' =>
      let i' := Nat.max i next in
      if (b <? 0)%Z then obind (sp_loop bs model i' 0) (fun l => Ok (z' :: l))
      else obind (vec_get model i') (fun x => obind (sp_loop bs model (S i') z') (fun l => Ok (x :: l))))
  end.
(** FitUtils.cxx:1671-1720. *)
Definition sparsifyModel (bins : list Z) (model : list R) : outcome (list R) := sp_loop bins model 0 0.

(** FitUtils.cxx:1747-1751. *)
Fixpoint sumw_to (weights model : list R) (i n : nat) (zw z : R) : outcome (R * R) :=
  match n with
  | 0%nat => Ok (zw, z)
  | S n' => obind (vec_get weights i) (fun w => obind (vec_get model i) (fun x =>
            sumw_to weights model (S i) n' (zw + w * x) (z + x)))
  end.
(** FitUtils.cxx:1739-1765. *)
Fixpoint spw_loop (bins : list Z) (weights model : list R) (i : nat) (zw z : R) : outcome (list R) :=
  match bins with
  | [] => Ok []
  | b :: bs =>
      let next := Z.to_nat (Z.abs b) in
      obind (sumw_to weights model i (next - i) zw z) (fun p =>
      let (zw', z') := p in
      let i' := Nat.max i next in
      if (b <? 0)%Z then
        let lumped := if Rltb 0 z' then zw' / z' else 1 in
        obind (spw_loop bs weights model i' 0 0) (fun l => Ok (lumped :: l))
      else obind (vec_get weights i') (fun x =>
           obind (spw_loop bs weights model (S i') zw' z') (fun l => Ok (x :: l))))
  end.
(** FitUtils.cxx:1722-1787. *)
Definition sparsifyWeights (bins : list Z) (weights model : list R) : outcome (list R) :=
  spw_loop bins weights model 0 0 0.

(** ** Refactoring *)

(** FitUtils.cxx:1600-1603, [vectorAdd(fixed_out, tmpl, fixed_out, 1, scale)]:
    slot 0 of the store is fixed_out (input and output), slot 1 the template. *)
Definition add_fixed (fixed tmpl : list R) (scale : R) : outcome (list R) :=
  obind (vectorAdd Rplus Rmult (fun k => match k with O => fixed | _ => tmpl end) 0 1 0 1 scale)
    (fun p => if snd p then Throw else Ok (fst p 0%nat)).

(** FitUtils.cxx:1594-1605: [scales_in[i]] is not bounds checked. *)
Fixpoint refactor_loop (i : nat) (templates : list (list R)) (free : list bool) (scales_in : list R)
    (t_out : list (list R)) (fixed_out s_out : list R) : outcome (list (list R) * list R * list R) :=
  match templates, free with
  | t :: ts, f :: fs =>
      obind (vec_get scales_in i) (fun s =>
      if (f : bool) then refactor_loop (S i) ts fs scales_in (t_out ++ [t]) fixed_out (s_out ++ [s])
      else obind (add_fixed fixed_out t s) (fun fo => refactor_loop (S i) ts fs scales_in t_out fo s_out))
  | [], _ => Ok (t_out, fixed_out, s_out)
  | _ :: _, [] => UB
  end.
(** FitUtils.cxx:1572-1612; result: templates_out, fixed_out, scales_out.  Line
    1588-1589 make fixed_out a copy of fixed_in.
 *)
Definition refactorModels (templates_in : list (list R)) (fixed_in scales_in : list R) (free : list bool)
    (test : option (list R)) : outcome (list (list R) * list R * list R) :=
  if negb (length templates_in =? length free)%nat then Throw
  else obind (refactor_loop 0 templates_in free scales_in [] fixed_in [])
    (fun r => match r with (t, f, s) =>
       Ok (match test with
           | Some m => (t ++ [m], f, s ++ [0])
           | None => (t, f, s)
           end) end).

(** ** FitScanCache energy bins *)

(** FitScanner.cxx:1688-1696: nEBins+1 entries starting with 0. *)
Fixpoint cumul (acc : nat) (ns : list nat) : list nat :=
  match ns with [] => [] | n :: ns' => (acc + n)%nat :: cumul (acc + n) ns' end.
Definition setEnergyBinStopIdxs (npixels : list nat) : list nat := 0%nat :: cumul 0 npixels.

(** FitScanner.cxx:1052-1055 (setCache): the stop indices in use after the cache
    is set; in reduced mode reduceModels (FitScanner.cxx:1641-1650) overwrites
    them. *)
Definition cacheStops (useReduced : bool) (npixels : list nat) (data : list R) : outcome (list nat) :=
  let s := setEnergyBinStopIdxs npixels in
  if useReduced then obind (extractNonZeroBinsByLayer data s) (fun r => Ok (r_stops r)) else Ok s.

(** FitScanner.cxx:1169-1175: first and last bin of energy layers [first, last). *)
Definition setEnergyBins (stops : list nat) (first last : nat) : outcome (nat * nat) :=
  obind (match first with O => Ok 0%nat | S f => vec_get stops f end) (fun fb =>
  match last with
  | O => UB
  | S l => obind (vec_get stops l) (fun lb => Ok (fb, lb))
  end).

(** FitUtils.cxx:569-572, 541-544 and 846-849: the bins a range stands for; a
    last bin of 0 means "to the end". *)
Definition bin_range {A} (v : list A) (firstBin lastBin : nat) : list A :=
  skipn firstBin (if (lastBin =? 0)%nat then v else firstn lastBin v).

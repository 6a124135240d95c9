(** Model of sky maps in HEALPix pixels: src/HealpixProjMap.cxx (WmapModel has its base class, ProjMap.cxx).

    Numbers are reals.  The HEALPix library is external: [pix n d] is the pixel of direction d in a map of nside n,
    [near n d] the pixels and weights its interpolation uses, [sub n m i] the pixels of nside m inside pixel i of nside n. *)
From Coq Require Import Reals ZArith List Bool Arith String.
From Verif Require Import Base AccumModel EvtModel WmapModel CmapModel.
Import ListNotations.
Local Open Scope list_scope.
Local Open Scope nat_scope.

(** Healpix_Base::Npix. *)
Definition npix (nside : nat) : nat := 12 * nside * nside.

(** HealpixProjMap.h, ProjMap.h 145-163.  nside of the projection; a plane has an nside of its own. *)
Record hpm := mk_hpm {
  h_nside : nat;
  h_image : list (nat * list R);
  h_energies : list R;
  h_interp : bool;
  h_enforce : bool;
  h_omega : R;
  h_ints : list R;
  h_total : R }.

(** HealpixProjMap.cxx 537-560, computeMapIntegrals; float sums are taken to be exact.  No energies: the bound of the
    second loop wraps around. *)
Definition computeMapIntegrals (h : hpm) : outcome hpm :=
  obind (mfold (fun ints k =>
    obind (vec_get (h_image h) k) (fun plane =>
    obind (mfold (fun acc i => obind (vec_get (snd plane) i) (fun v => Ok (acc + v)%R)) (seq 0 (npix (h_nside h))) 0%R) (fun s =>
    Ok (ints ++ [(s * h_omega h)%R])))) (seq 0 (length (h_energies h))) []) (fun ints =>
  obind (match length (h_energies h) with
         | 0 => UB
         | 1 => vec_at ints 0
         | S n => mfold (fun acc k =>
             obind (vec_get ints (S k)) (fun v1 => obind (vec_get (h_energies h) (S k)) (fun e1 =>
             obind (vec_get ints k) (fun v0 => obind (vec_get (h_energies h) k) (fun e0 =>
             Ok (acc + (v1 * e1 + v0 * e0) / 2 * ln (e1 / e0))%R))))) (seq 0 n) 0%R
         end) (fun total =>
  Ok (mk_hpm (h_nside h) (h_image h) (h_energies h) (h_interp h) (h_enforce h) (h_omega h) ints total))).

(** HealpixProjMap.cxx 598-605: 4 pi over the number of pixels. *)
Definition omega (nside : nat) : R := (4 * PI / INR (npix nside))%R.

(** HealpixProjMap.cxx 110-187: [cols]: the columns of the table, with their names; [energies]: the extension with the
    energies.  find returns an unsigned number, so that the condition of 161 always holds; a row beyond the pixels is
    written outside of the plane. *)
Definition of_file (nside : nat) (cols : list (string * list R)) (energies : list R) (interp enforce : bool) : outcome hpm :=
  obind (mfold (fun image col =>
    if npix nside <? length (snd col) then UB else Ok (image ++ [(nside, snd col)])) cols []) (fun image =>
  computeMapIntegrals (mk_hpm nside image (if 1 <? length cols then energies else [100%R]) interp enforce (omega nside) [] 0)).

(** HealpixProjMap.cxx 189-238, 241-289: [f i] is the spatial distribution at pixel i.  Every pixel of a HEALPix map is on
    the sky (testpix2sph). *)
Definition almost_zero : R := (- (1 / 10 ^ 10))%R.
Definition of_source (nside : nat) (f : nat -> R) (energy : R) (interp enforce : bool) : outcome hpm :=
  let plane := map (fun i => if Rltb (f i) 0 && Rltb almost_zero (f i) then 0%R else f i) (seq 0 (npix nside)) in
  if existsb (fun v => Rltb v 0) plane then Throw
  else computeMapIntegrals (mk_hpm nside [(nside, plane)] [energy] interp enforce (omega nside) [] 0).

(** HealpixProjMap.cxx 64-80: planes of a plain vector; a plane the vector does not fill keeps uninitialised pixels,
    which are read later. *)
Definition foldVector (v : list R) (nside nebins : nat) : outcome (list (nat * list R)) :=
  if length v <? nebins * npix nside then UB
  else Ok (map (fun k => (nside, firstn (npix nside) (skipn (k * npix nside) v))) (seq 0 nebins)).

(** HealpixProjMap.cxx 83-93; a width of zero gives infinities. *)
Definition convertToDifferential (image : list (nat * list R)) (widths : list R) (n : nat) (solid : R) : outcome (list (nat * list R)) :=
  mfold (fun image k =>
    obind (vec_get image k) (fun plane => obind (vec_get widths k) (fun w =>
    if Reqb (solid * w) 0 then UB else
    if length (snd plane) <? n then UB else
    vec_set image k (fst plane, map (fun v => (v * (1 / (solid * w)))%R) (firstn n (snd plane)) ++ skipn n (snd plane)))))
    (seq 0 (length widths)) image.

(** HealpixProjMap.cxx 291-332; [edges]: the energies of the counts map. *)
Definition of_counts (nside : nat) (data edges : list R) (intensity : bool) : outcome hpm :=
  obind (fillEnergyBinGeomCenters [] edges) (fun energies =>
  obind (if intensity then fillEnergyBinWidths [] edges else Ok []) (fun widths =>
  obind (foldVector data nside (length edges - 1)) (fun image =>
  obind (if intensity then convertToDifferential image widths (npix nside) (omega nside) else Ok image) (fun image =>
  computeMapIntegrals (mk_hpm nside image energies false true (omega nside) [] 0))))).

Section Sky.
Context {D : Type}.
Variable pix : nat -> D -> nat.
Variable near : nat -> D -> list (nat * R).
Variable sub : nat -> nat -> nat -> list nat.

(** ProjMap.cxx 174-179. *)
Definition refused (h : hpm) (k : Z) : bool := ((k <? 0) || (Z.of_nat (length (h_energies h)) <? k))%Z.

(** HealpixProjMap.cxx 364-381, operator()(dir, k): Healpix_Map::interpolated_value is the weighted sum. *)
Definition value_plane (h : hpm) (d : D) (k : Z) : outcome R :=
  if refused h k then Throw else
  obind (vec_get (h_image h) (Z.to_nat k)) (fun plane =>
  if h_interp h
  then mfold (fun acc iw => obind (vec_get (snd plane) (fst iw)) (fun v => Ok (acc + snd iw * v)%R)) (near (fst plane) d) 0%R
  else vec_get (snd plane) (pix (fst plane) d)).

(** ProjMap.cxx 181-186. *)
Definition check_energy (h : hpm) (energy : R) : outcome unit :=
  if h_enforce h then
    obind (front (h_energies h)) (fun lo => obind (back (h_energies h)) (fun hi =>
    if Rltb energy lo || Rltb hi energy then Throw else Ok tt))
  else Ok tt.

(** HealpixProjMap.cxx 391-406. *)
Definition lower_plane (h : hpm) (energy : R) : outcome Z :=
  if 1 <? length (h_energies h) then
    obind (std_upper_bound (h_energies h) energy) (fun u =>
    let k := (Z.of_nat u - 1)%Z in
    let k := if (Z.of_nat (length (h_energies h)) - 2 <? k)%Z then (Z.of_nat (length (h_energies h)) - 2)%Z else k in
    Ok (if (k <? 0)%Z then 0%Z else k))
  else Ok 0%Z.

(** HealpixProjMap.cxx 420-422. *)
Definition lift (y : R) : R := if Rltb y 0 && Rltb almost_zero y then (y * - (1 / 10000))%R else y.

(** HealpixProjMap.cxx 384-427, operator()(dir, energy). *)
Definition value (h : hpm) (d : D) (energy0 : R) : outcome R :=
  obind (if Rltb energy0 0 then front (h_energies h) else Ok energy0) (fun energy =>
  obind (check_energy h energy) (fun _ =>
  obind (lower_plane h energy) (fun k =>
  obind (value_plane h d k) (fun y1 =>
  obind (vec_get (h_energies h) (Z.to_nat k)) (fun ek =>
  if Reqb energy ek then Ok y1 else
  obind (value_plane h d (k + 1)) (fun y2 =>
  obind (vec_get (h_energies h) (Z.to_nat (k + 1))) (fun ek1 =>
  interpolatePowerLaw energy ek ek1 (lift y1) (lift y2)))))))).

(** HealpixProjMap.cxx 514-518, for a whole number. *)
Definition pixelValue (h : hpm) (i : nat) (k : Z) : outcome R :=
  if refused h k then Throw else obind (vec_get (h_image h) (Z.to_nat k)) (fun plane => vec_get (snd plane) i).

(** HealpixProjMap.cxx 343-349, 448-472, convolve without convolution: one plane times the exposure; [None]: the null
    pointer.  The new map has the energies and the integrals of the old one. *)
Definition weigh (h : hpm) (energy : R) (expo : option (R -> nat -> R)) (k : Z) : outcome hpm :=
  if refused h k then Throw else
  obind (vec_get (h_image h) (Z.to_nat k)) (fun plane =>
  obind (mfold (fun vs i => obind (vec_get (snd plane) i) (fun v =>
    Ok (vs ++ [match expo with None => v | Some x => (v * x energy i)%R end]))) (seq 0 (npix (fst plane))) []) (fun counts =>
  Ok (mk_hpm (h_nside h) [(fst plane, counts)] (h_energies h) (h_interp h) (h_enforce h) (h_omega h) (h_ints h) (h_total h)))).

(** HealpixProjMap.cxx 429-446, convolveAll without convolution. *)
Definition weigh_all (h : hpm) (expo : option (R -> nat -> R)) : outcome hpm :=
  obind (mfold (fun image k =>
    obind (vec_get (h_energies h) k) (fun energy =>
    obind (weigh h energy expo (Z.of_nat k)) (fun layer =>
    obind (vec_get (h_image layer) 0) (fun plane => Ok (image ++ [plane]))))) (seq 0 (length (h_energies h))) []) (fun image =>
  computeMapIntegrals (mk_hpm (h_nside h) image (h_energies h) (h_interp h) (h_enforce h) (h_omega h) (h_ints h) (h_total h))).

(** HealpixProjMap.cxx 474-483: nside used for the convolution; [r68]: psf.containmentRadius(energy, 0.68), in degrees.
    pixelSize() is in degrees (602-604). *)
Definition pixel_size (h : hpm) : R := (sqrt (h_omega h) * 180 / PI)%R.
Definition nside_used (h : hpm) (r68 : R) : nat :=
  if Rltb (2 * (r68 / 3 * PI / 180)) (pixel_size h) then 2 * h_nside h else h_nside h.

(** Healpix_Map::Import_degrade (external): an exception unless this nside is smaller than and divides the other; each
    pixel is the mean of those inside. *)
Definition import_degrade (n : nat) (plane : nat * list R) : outcome (nat * list R) :=
  if negb (n <? fst plane) || negb (fst plane mod n =? 0) then Throw else
  obind (mfold (fun vs i =>
    obind (mfold (fun acc j => obind (vec_get (snd plane) j) (fun v => Ok (acc + v)%R)) (sub n (fst plane) i) 0%R) (fun s =>
    Ok (vs ++ [(s / INR (length (sub n (fst plane) i)))%R]))) (seq 0 (npix n)) []) (fun vs => Ok (n, vs)).

(** HealpixProjMap.cxx 562-579.  The constructor Healpix_Map(int, scheme) takes the order, log2(nside) (compare 203 and
    255), at most 13 (external: an exception above). *)
Definition rebin (h : hpm) (factor : nat) (average : bool) : outcome hpm :=
  if factor <=? 1 then Ok h else
  let newNside := h_nside h / factor in
  if (newNside =? 0) && (h_nside h =? 1) then Ok h else
  let newNside := if newNside =? 0 then 1 else newNside in
  obind (mfold (fun image k =>
    if 13 <? newNside then Throw else
    obind (vec_get image k) (fun plane => obind (import_degrade (2 ^ newNside) plane) (fun p => vec_set image k p)))
    (seq 0 (length (h_energies h))) (h_image h)) (fun image =>
  Ok (mk_hpm (h_nside h) image (h_energies h) (h_interp h) (h_enforce h) (h_omega h) (h_ints h) (h_total h))).
End Sky.

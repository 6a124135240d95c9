(** Model of the look-up of values in a sky map: src/WcsMap2.cxx and the base
    class src/ProjMap.cxx.

    Pixel values and coordinates are real numbers.  The projection
    (astro::SkyProj) is external: a look-up takes the pixel coordinates of the
    direction, none when the projection throws.  The counter of extrapolations
    (a diagnostic message) is left out. *)
From Coq Require Import Reals List ZArith.
From Flocq Require Import Core.
From Verif Require Import Base AccumModel EvtModel.
Import ListNotations.
Local Open Scope R_scope.
Local Open Scope list_scope.

(** std::vector::at with an int argument: a negative one becomes a huge size_t. *)
Definition at_z {A} (l : list A) (i : Z) : outcome A :=
  if (i <? 0)%Z then Throw else vec_at l (Z.to_nat i).

(** row.back(); undefined on an empty vector. *)
Definition last_of (l : list R) : outcome R := match l with [] => UB | _ => Ok (last l 0) end.

(** WcsMap2.cxx 58-64, my_round. *)
Definition my_round (x : R) : Z :=
  let xint := Ztrunc x in if Rleb (1 / 2) (x - IZR xint) then (xint + 1)%Z else xint.

(** WcsMap2.cxx 185-187, 306-308, 377-379: whether a map of [n1] columns of
    [cdelt1] degrees wraps around. *)
Definition is_periodic (n1 : nat) (cdelt1 : R) : bool := (Z.abs (my_round (INR n1 * cdelt1)) =? 360)%Z.

(** std::fmod. *)
Definition fmod (x n : R) : R := x - IZR (Ztrunc (x / n)) * n.

(** WcsMap2.h 168-182 and ProjMap.h 145-163: what look-ups read. *)
Record wmap := mkWmap {
  w_image : list (list (list R));
  w_naxes : nat;
  w_n1 : nat;
  w_n2 : nat;
  w_periodic : bool;
  w_interpolate : bool;
  w_enforce : bool;
  w_energies : list R;
  w_integrals : list R }.

(** ProjMap.cxx 174-179, check_energy_index. *)
Definition index_refused (w : wmap) (k : Z) : bool :=
  ((k <? 0) || (Z.of_nat (length (w_energies w)) <? k))%Z%bool.

(** ProjMap.cxx 181-186, check_energy. *)
Definition check_energy (w : wmap) (energy : R) : outcome unit :=
  if w_enforce w then
    obind (front (w_energies w)) (fun lo => obind (back (w_energies w)) (fun hi =>
    if (Rltb energy lo || Rltb hi energy)%bool then Throw else Ok tt))
  else Ok tt.

(** WcsMap2.cxx 820-836, pixelValue. *)
Definition pixelValue (w : wmap) (ilon ilat : R) (k : Z) : outcome R :=
  if index_refused w k then Throw else
  let ix := (my_round ilon - 1)%Z in
  let iy := (my_round ilat - 1)%Z in
  if ((negb (w_periodic w) && ((ix <? 0) || (Z.of_nat (w_n1 w) <=? ix))) || (iy <? 0) || (Z.of_nat (w_n2 w) <=? iy))%Z%bool then Ok 0 else
  let ix' := if ((ix <? 0) && (-1 <=? ix))%Z%bool then 0%Z else ix in
  obind (vec_get (w_image w) (Z.to_nat k)) (fun plane =>
  obind (at_z plane iy) (fun row => at_z row ix')).

(** WcsMap2.cxx 478-547, operator()(dir, k); [pix] are the pixel coordinates
    of dir. *)
Definition value_plane (w : wmap) (pix : option (R * R)) (k : Z) : outcome R :=
  if index_refused w k then Throw else
  match pix with
  | None => Ok 0
  | Some (px, y) =>
    let n1 := INR (w_n1 w) in
    let n2 := INR (w_n2 w) in
    let x := if w_periodic w then fmod px n1 else px in
    if ((negb (w_periodic w) && (Rltb x (1 / 2) || Rltb (n1 + 1 / 2) x)) || Rltb y (1 / 2) || Rltb (n2 + 1 / 2) y)%bool then Ok 0 else
    if negb (w_interpolate w) then pixelValue w x y k else
    let ix := Ztrunc x in
    let iy := Ztrunc y in
    if (negb (w_periodic w) && ((ix <? 1) || (Z.of_nat (w_n1 w) <=? ix))%Z)%bool then pixelValue w x y k else
    if ((iy <? 1) || (Z.of_nat (w_n2 w) <=? iy))%Z%bool then pixelValue w x y k else
    let t := x - IZR ix in
    let u := y - IZR iy in
    obind (vec_get (w_image w) (Z.to_nat k)) (fun plane =>
    obind (if (w_periodic w && (ix =? 0)%Z)%bool
           then obind (at_z plane (iy - 1)) (fun r1 => obind (last_of r1) (fun y1 =>
                obind (at_z plane iy) (fun r4 => obind (last_of r4) (fun y4 => Ok (y1, y4)))))
           else obind (at_z plane (iy - 1)) (fun r1 => obind (at_z r1 (ix - 1)) (fun y1 =>
                obind (at_z plane iy) (fun r4 => obind (at_z r4 (ix - 1)) (fun y4 => Ok (y1, y4)))))) (fun y14 =>
    obind (at_z plane (iy - 1)) (fun r2 => obind (at_z r2 ix) (fun y2 =>
    obind (at_z plane iy) (fun r3 => obind (at_z r3 ix) (fun y3 =>
    Ok ((1 - t) * (1 - u) * fst y14 + t * (1 - u) * y2 + t * u * y3 + (1 - t) * u * snd y14)))))))
  end.

(** ProjMap.cxx 188-228, interpolatePowerLaw.  Equal abscissae (a division by
    zero) and a non-positive [x] in the power (NaN or infinite) are undefined. *)
Definition interpolatePowerLaw (x x1 x2 y1 y2 : R) : outcome R :=
  if (Reqb y1 0 && Reqb y2 0)%bool then Ok 0 else
  if (Reqb y1 0 || Reqb y2 0)%bool then
    if ((Rltb x x1 && Reqb y1 0) || (Rltb x2 x && Reqb y2 0))%bool then Ok 0 else
    if Reqb x2 x1 then UB else Ok ((x - x1) / (x2 - x1) * (y2 - y1) + y1)
  else
  if (Rleb x1 0 || Rleb x2 0 || Rleb y1 0 || Rleb y2 0)%bool then Throw else
  if (Reqb x2 x1 || Rleb x 0)%bool then UB else
  let gamma := ln (y2 / y1) / ln (x2 / x1) in
  Ok (y1 * Rpower (x / x1) gamma).

(** WcsMap2.cxx 555-570: the lower plane of the pair used for an energy. *)
Definition lower_plane (w : wmap) (energy : R) : outcome Z :=
  if ((w_naxes w =? 3) && (1 <? length (w_energies w)))%nat%bool then
    obind (std_upper_bound (w_energies w) energy) (fun u =>
    let k := (Z.of_nat u - 1)%Z in
    let k := if (Z.of_nat (length (w_energies w)) - 2 <? k)%Z then (Z.of_nat (length (w_energies w)) - 2)%Z else k in
    Ok (if (k <? 0)%Z then 0%Z else k))
  else Ok 0%Z.

(** WcsMap2.cxx 549-580, operator()(dir, energy). *)
Definition value (w : wmap) (pix : option (R * R)) (energy0 : R) : outcome R :=
  obind (if Rltb energy0 0 then front (w_energies w) else Ok energy0) (fun energy =>
  obind (check_energy w energy) (fun _ =>
  obind (lower_plane w energy) (fun k =>
  obind (value_plane w pix k) (fun y1 =>
  obind (vec_get (w_energies w) (Z.to_nat k)) (fun ek =>
  if Reqb energy ek then Ok y1 else
  obind (value_plane w pix (k + 1)) (fun y2 =>
  obind (vec_get (w_energies w) (Z.to_nat (k + 1))) (fun ek1 =>
  interpolatePowerLaw energy ek ek1 y1 y2))))))).

(** WcsMap2.cxx 838-850, insideMap. *)
Definition insideMap (w : wmap) (pix : R * R) : bool :=
  let '(x, y) := pix in
  negb ((negb (w_periodic w) && (Rltb x (1 / 2) || Rltb (INR (w_n1 w) + 1 / 2) x)) || Rltb y (1 / 2) || Rltb (INR (w_n2 w) + 1 / 2) y)%bool.

(** ProjMap.cxx 142-166, mapIntegral(energy).  The logarithm of a quotient
    that is not a positive number is undefined. *)
Definition mapIntegral (w : wmap) (energy : R) : outcome R :=
  obind (check_energy w energy) (fun _ =>
  obind (if (1 <? length (w_energies w))%nat then obind (std_upper_bound (w_energies w) energy) (fun u => Ok (Z.of_nat u - 1)%Z) else Ok 0%Z) (fun k =>
  let k := if (k <? 0)%Z then 0%Z else k in
  obind (vec_at (w_energies w) (Z.to_nat k)) (fun ek =>
  if Reqb energy ek then vec_at (w_integrals w) (Z.to_nat k) else
  let k := if (k =? Z.of_nat (length (w_energies w)) - 1)%Z then (Z.of_nat (length (w_energies w)) - 2)%Z else k in
  if (k <? 0)%Z then UB else
  obind (vec_get (w_energies w) (Z.to_nat k)) (fun e1 =>
  obind (vec_get (w_energies w) (Z.to_nat k + 1)) (fun e2 =>
  obind (vec_get (w_integrals w) (Z.to_nat k)) (fun i1 =>
  obind (vec_get (w_integrals w) (Z.to_nat k + 1)) (fun i2 =>
  if (Rleb energy 0 || Rleb e1 0 || Rleb e2 0 || Reqb e1 e2 || Rleb i1 0 || Rleb i2 0)%bool then UB else
  Ok (i1 * exp (ln (energy / e1) / ln (e2 / e1) * ln (i2 / i1)))))))))).

(** WcsMap2.cxx 602-633 with performConvolution = false: one plane of the map
    times the exposure ([expo i j], none where the projection has no such
    pixel).  The new map keeps the energies and integrals of this one. *)
Definition weigh_plane (plane : list (list R)) (n1 n2 : nat) (expo : nat -> nat -> option R) : outcome (list (list R)) :=
  mfold (fun counts j =>
    obind (mfold (fun row i =>
      match expo i j with
      | None => Ok (row ++ [0])
      | Some f => obind (vec_get plane j) (fun r => obind (vec_get r i) (fun v => Ok (row ++ [v * f])))
      end) (seq 0 n1) []) (fun row => Ok (counts ++ [row])))
    (seq 0 n2) [].

Definition convolve (w : wmap) (expo : nat -> nat -> option R) (k : Z) : outcome wmap :=
  if index_refused w k then Throw else
  obind (vec_get (w_image w) (Z.to_nat k)) (fun plane =>
  obind (weigh_plane plane (w_n1 w) (w_n2 w) expo) (fun counts =>
  Ok (mkWmap [counts] (w_naxes w) (w_n1 w) (w_n2 w) (w_periodic w) (w_interpolate w) (w_enforce w) (w_energies w) (w_integrals w)))).

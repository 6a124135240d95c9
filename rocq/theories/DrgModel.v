(** Directions and limits of the integrals that give the diffuse response of an event:
    EquinoxRotation.cxx, DiffRespIntegrand.cxx, DiffRespIntegrand2.cxx (the same code for
    directions and angles), MapBase.cxx 149-197, Event.cxx 170-230 and DiffuseSource.cxx
    330-374 and 401-410.  Real numbers instead of doubles. *)
From Verif Require Import Base AccumModel.
From Coq Require Import Reals List.
Import ListNotations.
Local Open Scope R_scope.

(** CLHEP::Hep3Vector (external): x, y, z. *)
Notation vec := (R * R * R)%type.
Definition vx (v : vec) : R := fst (fst v).
Definition vy (v : vec) : R := snd (fst v).
Definition vz (v : vec) : R := snd v.
(** Hep3Vector::dot (external). *)
Definition dot (a b : vec) : R := vx a * vx b + vy a * vy b + vz a * vz b.
(** astro::SkyDir::difference (external): the angle from the chord. *)
Definition difference (a b : vec) : R :=
  2 * asin (sqrt ((vx a - vx b) * (vx a - vx b) + (vy a - vy b) * (vy a - vy b) + (vz a - vz b) * (vz a - vz b)) / 2).
(** astro::SkyDir(ra, dec) (external): a SkyDir is its unit vector, made here from degrees. *)
Definition skydir (ra dec : R) : vec :=
  (cos (dec * PI / 180) * cos (ra * PI / 180), cos (dec * PI / 180) * sin (ra * PI / 180), sin (dec * PI / 180)).

Section Geometry.
  (** astro::SkyDir::ra() and dec() (external). *)
  Variable angles : vec -> R * R.

  (** EquinoxRotation.cxx 15-50: m_rotMatrix[row][column]. *)
  Definition rotation (alpha0 delta0 : R) : vec * vec * vec :=
    let alpha0 := alpha0 * PI / 180 in
    let delta0 := delta0 * PI / 180 in
    let ca := cos alpha0 in let sa := sin alpha0 in
    let cd := cos delta0 in let sd := sin delta0 in
    ((cd * ca, - sa, - sd * ca), (cd * sa, ca, - sd * sa), (sd, 0, cd)).

  Definition row0 (m : vec * vec * vec) : vec := fst (fst m).
  Definition row1 (m : vec * vec * vec) : vec := snd (fst m).
  Definition row2 (m : vec * vec * vec) : vec := snd m.

  (** EquinoxRotation.cxx 52-73: out[i] = sum over j of m[i][j] in[j], or of m[j][i] in[j]. *)
  Definition do_rotation (m : vec * vec * vec) (inDir : vec) (reverse : bool) : vec :=
    let alpha := fst (angles inDir) * PI / 180 in
    let delta := snd (angles inDir) * PI / 180 in
    let v := (cos delta * cos alpha, cos delta * sin alpha, sin delta) in
    if reverse
    then (0 + vx (row0 m) * vx v + vx (row1 m) * vy v + vx (row2 m) * vz v,
          0 + vy (row0 m) * vx v + vy (row1 m) * vy v + vy (row2 m) * vz v,
          0 + vz (row0 m) * vx v + vz (row1 m) * vy v + vz (row2 m) * vz v)
    else (0 + vx (row0 m) * vx v + vy (row0 m) * vy v + vz (row0 m) * vz v,
          0 + vx (row1 m) * vx v + vy (row1 m) * vy v + vz (row1 m) * vz v,
          0 + vx (row2 m) * vx v + vy (row2 m) * vy v + vz (row2 m) * vz v).

  (** DiffRespIntegrand.cxx 25-33. *)
  Definition my_acos (mu : R) : R :=
    if Rltb 1 mu then 0 else if Rltb mu (- 1) then PI else acos mu.

  (** DiffRespIntegrand.cxx 79-93, DiffRespIntegrand2.cxx 71-85.  The square root of a negative number
      and 0/0 (not a number) are UB. *)
  Definition getSrcDir (mu phi : R) (eqRot : vec * vec * vec) : outcome vec :=
    let sp := sin phi in
    let q := 1 - (1 - mu * mu) * sp * sp in
    if Rltb (1 - mu * mu) 0 then UB
    else if Rltb q 0 then UB
    else if Reqb q 0 then UB
    else
      let arg := mu / sqrt q in
      let alpha := my_acos arg in
      let alpha := if Rltb (cos phi) 0 then 2 * PI - alpha else alpha in
      let delta := asin (sqrt (1 - mu * mu) * sp) in
      let indir := skydir (alpha * 180 / PI) (delta * 180 / PI) in
      Ok (do_rotation eqRot indir false).

  (** DiffRespIntegrand.cxx 95-119, DiffRespIntegrand2.cxx 87-111.  Division by zero is UB (here 0/0). *)
  Definition phiValue (mu : R) (srcDir : vec) (eqRot : vec * vec * vec) : outcome R :=
    obind (getSrcDir mu 0 eqRot) (fun refDir =>
    let cos_psi := dot refDir srcDir in
    if Reqb (1 - mu * mu) 0 then UB
    else
      let arg := (cos_psi - mu * mu) / (1 - mu * mu) in
      let phi0 := if Rleb arg (- 1) then PI else if Rleb 1 arg then 0 else acos arg in
      let phi1 := - phi0 in
      obind (getSrcDir mu phi0 eqRot) (fun srcDir0 =>
      obind (getSrcDir mu phi1 eqRot) (fun srcDir1 =>
      if Rltb (difference srcDir srcDir0) (1 / 100000000) then Ok phi0 else Ok phi1))).

  Record limits := mkLimits { mumin : R; mumax : R; phimin : R; phimax : R }.

  (** MapBase.cxx 149-197; the farthest and closest pixels, whether the map holds the direction and its
      corners are those of the map (WrebModel.v). *)
  Definition getDiffRespLimits (dir : vec) (inside : bool) (closest farthest : vec) (corners : list vec) : outcome limits :=
    let eqRot := rotation (fst (angles dir)) (snd (angles dir)) in
    let mumin := dot farthest dir in
    if inside then Ok (mkLimits mumin 1 0 (2 * PI))
    else
      let mumax := dot closest dir in
      match corners with
      | [] => UB
      | c :: rest =>
        obind (phiValue (dot c dir) c eqRot) (fun p =>
        obind (mfold (fun (r : R * R) c => obind (phiValue (dot c dir) c eqRot) (fun phitest =>
                        Ok (if Rltb phitest (fst r) then phitest else fst r,
                            if Rltb (snd r) phitest then phitest else snd r))) rest (p, p)) (fun r =>
        let phimin := fst r in
        let phimax := snd r in
        let dphi := phimax - phimin in
        if Rltb PI dphi then
          if Rltb phimin 0 then Ok (mkLimits mumin mumax phimax (2 * PI + phimin))
          else if Rltb phimax 0 then Ok (mkLimits mumin mumax (phimax - 2 * PI) phimin)
          else Ok (mkLimits mumin mumax phimin phimax)
        else Ok (mkLimits mumin mumax phimin phimax)))
      end.

  (** DiffRespIntegrand.cxx 125-149, DiffRespIntegrand2.cxx 117-141: the integrand; [resp] stands for
      totalResponse with the event's arguments, [dist] for spatialDist at the event's energy. *)
  Definition integrand (resp dist : vec -> R) (scDir : vec) (eqRot : vec * vec * vec) (mu phi : R) : outcome R :=
    obind (getSrcDir mu phi eqRot) (fun srcDir =>
    let inc := difference scDir srcDir * 180 / PI in
    if Rltb 90 inc then Ok 0 else Ok (resp srcDir * dist srcDir)).
End Geometry.

(** Event.cxx 175-228 for a source that is not a SpatialFunction and not integrated over its map: which
    integrals are taken; [I a b] stands for the two-dimensional integral from mu = a to mu = b. *)
Definition gq_response (I : R -> R -> R) (psf2s theta mapmumin mapmumax : R) : R :=
  let thetamax := 725 / 10 in
  let psfmax := Rmin 180 (Rmax (4 * psf2s) (theta - thetamax)) in
  let mu_psf2s := cos (psf2s * PI / 180) in
  let mu_psfmax := cos (psfmax * PI / 180) in
  let mumin := Rmax mapmumin mu_psfmax in
  if Rltb mu_psf2s mumin then I mumin mapmumax
  else I mu_psf2s mapmumax + I mumin mu_psf2s.

(** DiffuseSource.cxx 401-410, in radians. *)
Definition psfRange (energy : R) : R :=
  let min_angle := 5 * PI / 180 in
  let ebreak := 10000 in
  if Rltb ebreak energy then min_angle else min_angle * Rpower (energy / ebreak) (- (8 / 10)).

(** DiffuseSource.cxx 351-374: [skyDir i j] is the map's pixel direction (numbered from one), [solid] its
    solid angles, [resp] and [dist] as above. *)
Definition diffuseResponse_wcs (skyDir : nat -> nat -> vec) (resp dist : vec -> R) (evtDir : vec) (energy : R)
    (solid : list (list R)) : outcome R :=
  mfold (fun my_value i => obind (vec_at solid i) (fun col =>
    mfold (fun my_value j =>
      if Rltb (difference evtDir (skyDir (i + 1)%nat (j + 1)%nat)) (psfRange energy) then
        let srcDir := skyDir (i + 1)%nat (j + 1)%nat in
        obind (vec_at solid i) (fun col => obind (vec_at col j) (fun omega =>
        Ok (my_value + resp srcDir * dist srcDir * omega)))
      else Ok my_value) (seq 0 (length col)) my_value)) (seq 0 (length solid)) 0.

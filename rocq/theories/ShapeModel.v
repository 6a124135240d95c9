(** Model of the analytic and tabulated shapes of extended sources:
    src/RadialProfile.cxx, src/SpatialFunction.cxx, src/RadialDisk.cxx,
    src/RadialGaussian.cxx, src/SkyDirFunction.cxx, and of what
    src/DiffuseSource.cxx does with them.

    Numbers are real; a division by zero is undefined here unless the code only
    compares its result.  Directions on the sky (astro::SkyDir) are external:
    [mkdir ra dec] is the direction with these coordinates and [sep] the angle
    between two directions in radians. *)
From Coq Require Import Reals List Bool.
From Verif Require Import Base AccumModel EvtModel TrapModel.
Import ListNotations.
Local Open Scope R_scope.
Local Open Scope list_scope.

(** ** Tabulated profiles *)

(** RadialProfile.cxx 66-76, valueAtOffset: [m_theta.size() - 2] wraps around
    for a table of one point, and at() throws. *)
Definition valueAtOffset (theta profile : list R) (offset : R) : outcome R :=
  obind (back theta) (fun last =>
  obind (front theta) (fun first =>
  obind (if Rleb last offset then
           (if (length theta <? 2)%nat then Throw else Ok (length theta - 2)%nat)
         else if Rltb first offset then obind (std_upper_bound theta offset) (fun u => match u with O => Throw | S m => Ok m end)
         else Ok 0%nat) (fun indx =>
  obind (vec_at theta indx) (fun t0 =>
  obind (vec_at theta (indx + 1)) (fun t1 =>
  obind (vec_at profile (indx + 1)) (fun p1 =>
  obind (vec_at profile indx) (fun p0 =>
  if Reqb (t1 - t0) 0 then UB else Ok ((offset - t0) / (t1 - t0) * (p1 - p0) + p0)))))))).

(** RadialProfile.cxx 108-117, angularIntegral. *)
Definition angularIntegral (theta profile : list R) : outcome R :=
  obind (mfold (fun '(xs, ys) i =>
    obind (vec_at theta i) (fun t => let x := t * PI / 180 in
    obind (vec_at profile i) (fun p => Ok (xs ++ [x], ys ++ [sin x * p * 2 * PI])))) (seq 0 (length theta)) ([], []))
    (fun xy => integral (FromData (fst xy) (snd xy) false)).

(** RadialProfile.cxx 133-152, readTemplateFile: [lines] are the numbers on the
    lines that are not comments.  The tables as they are left, and whether the
    file was accepted. *)
Fixpoint read_lines (lines : list (list R)) (theta profile : list R) : (list R * list R) * outcome unit :=
  match lines with
  | [] => ((theta, profile), Ok tt)
  | tokens :: rest =>
      match tokens with
      | [] => ((theta, profile), Throw)
      | t :: tokens' =>
          match tokens' with
          | [] => ((theta ++ [t], profile), Throw)
          | p :: _ =>
              if match theta with [] => false | _ => Rltb t (last theta 0) end
              then ((theta ++ [t], profile ++ [p]), Throw)
              else read_lines rest (theta ++ [t]) (profile ++ [p])
          end
      end
  end.

Definition readTemplateFile (lines : list (list R)) := read_lines lines [] [].

Section Sky.
  Context {Dir : Type}.
  Variable mkdir : R -> R -> Dir.
  Variable sep : Dir -> Dir -> R.

  (** RadialProfile.h 74-80 and the parameters of RadialProfile.cxx 119-131. *)
  Record profile := mkProfile {
    p_norm : R; p_ra : R; p_dec : R;
    p_center : option Dir;
    p_theta : list R; p_profile : list R }.

  (** RadialProfile.cxx 31-36. *)
  Definition new_profile (theta prof : list R) : profile := mkProfile 1 0 0 None theta prof.

  Inductive ppar := Norm | PRA | PDEC.

  (** The parameters are set by the base class (external; the bounds of lines
      121, 125 and 129 are its own business). *)
  Definition p_set (s : profile) (par : ppar) (x : R) : profile :=
    match par with
    | Norm => mkProfile x (p_ra s) (p_dec s) (p_center s) (p_theta s) (p_profile s)
    | PRA => mkProfile (p_norm s) x (p_dec s) (p_center s) (p_theta s) (p_profile s)
    | PDEC => mkProfile (p_norm s) (p_ra s) x (p_center s) (p_theta s) (p_profile s)
    end.

  (** RadialProfile.cxx 100-102, setCenter (the parameters are left alone). *)
  Definition p_setCenter (s : profile) (ra dec : R) : profile :=
    mkProfile (p_norm s) (p_ra s) (p_dec s) (Some (mkdir ra dec)) (p_theta s) (p_profile s).

  (** RadialProfile.cxx 38-47, the copy, and 53-64, the assignment. *)
  Definition p_copy (s : profile) : profile := mkProfile (p_norm s) (p_ra s) (p_dec s) (match p_center s with Some c => Some c | None => None end) (p_theta s) (p_profile s).
  Definition p_assign (s rhs : profile) : profile :=
    mkProfile (p_norm rhs) (p_ra rhs) (p_dec rhs) (match p_center rhs with Some c => Some c | None => p_center s end) (p_theta rhs) (p_profile rhs).

  (** RadialProfile.cxx 78-86, value: the centre is taken from the parameters
      the first time and kept. *)
  Definition p_value (s : profile) (dir : Dir) : profile * outcome R :=
    let c := match p_center s with Some c => c | None => mkdir (p_ra s) (p_dec s) end in
    (mkProfile (p_norm s) (p_ra s) (p_dec s) (Some c) (p_theta s) (p_profile s), valueAtOffset (p_theta s) (p_profile s) (sep dir c * 180 / PI)).

  (** RadialProfile.cxx 89-98, derivByParamImp. *)
  Definition p_deriv (s : profile) (par : ppar) (dir : Dir) : outcome R :=
    match par with
    | Norm => obind (snd (p_value s dir)) (fun v => if Reqb (p_norm s) 0 then UB else Ok (v / p_norm s))
    | _ => Throw
    end.

  (** RadialProfile.cxx 104-106, getCenter: the pointer is not checked. *)
  Definition p_getCenter (s : profile) : outcome Dir := match p_center s with Some c => Ok c | None => UB end.

  (** RadialProfile.h 54-56. *)
  Definition p_mapRadius (s : profile) : outcome R := back (p_theta s).

  (** ** Disks and Gaussians *)

  Inductive kind := Disk | Gaussian.

  (** SpatialFunction.h 112-181 with RadialDisk.h 117 and RadialGaussian.h 117:
      the parameters RA, DEC and Radius or Sigma, and the direction and size
      they are kept in. *)
  Record spatial := mkSpatial { s_kind : kind; s_ra : R; s_dec : R; s_par : R; s_dir : Dir; s_size : R }.

  (** RadialDisk.cxx 70-81, RadialGaussian.cxx 81-93 (its lines counted in its
      own file), SpatialFunction.cxx 38-49. *)
  Definition new_spatial (k : kind) (ra dec size : R) : spatial := mkSpatial k ra dec size (mkdir ra dec) size.

  (** SpatialFunction.cxx 60-62, setCenter. *)
  Definition s_setCenter (s : spatial) (ra dec : R) : spatial := mkSpatial (s_kind s) (s_ra s) (s_dec s) (s_par s) (mkdir ra dec) (s_size s).

  (** SpatialFunction.cxx 104-108, RadialDisk.cxx 130-134, RadialGaussian.cxx
      144-148, update. *)
  Definition s_update (s : spatial) : spatial := mkSpatial (s_kind s) (s_ra s) (s_dec s) (s_par s) (mkdir (s_ra s) (s_dec s)) (s_par s).

  Inductive spar := SRA | SDEC | SSize.

  (** The parameter alone, as the base class sets it. *)
  Definition s_direct (s : spatial) (par : spar) (x : R) : spatial :=
    match par with
    | SRA => mkSpatial (s_kind s) x (s_dec s) (s_par s) (s_dir s) (s_size s)
    | SDEC => mkSpatial (s_kind s) (s_ra s) x (s_par s) (s_dir s) (s_size s)
    | SSize => mkSpatial (s_kind s) (s_ra s) (s_dec s) x (s_dir s) (s_size s)
    end.

  (** SpatialFunction.h 147-150, setParam. *)
  Definition s_setParam (s : spatial) (par : spar) (x : R) : spatial := s_update (s_direct s par x).

  (** SourceModel.cxx 589-602, reReadXml: setParams with a vector of parameters
      is that of the base class; SpatialFunction.cxx 99-102 overrides the one
      that reads an element. *)
  Definition s_reread (s : spatial) (ra dec size : R) : spatial := s_direct (s_direct (s_direct s SRA ra) SDEC dec) SSize size.
  Definition s_read (s : spatial) (ra dec size : R) : spatial := s_update (s_reread s ra dec size).

  (** RadialDisk.cxx 36-41, disk: for a radius of zero the quotient is infinite
      or not a number, and not smaller than one. *)
  Definition disk (x sigma : R) : R :=
    if Reqb sigma 0 then 0 else if Rltb (x / sigma) 1 then / (sigma * sigma * PI) else 0.

  (** RadialGaussian.cxx 39-43, gauss. *)
  Definition gauss (x sigma : R) : outcome R :=
    if Reqb sigma 0 then UB else Ok (1 / (2 * PI * sigma * sigma) * exp (- x * x / (2 * sigma * sigma))).

  (** RadialDisk.cxx 98-105, 136-140, RadialGaussian.cxx 111-118, 150-155:
      value. *)
  Definition shape (k : kind) (delta size : R) : outcome R :=
    match k with
    | Disk => Ok (disk delta size * / ((PI / 180) * (PI / 180)))
    | Gaussian => obind (gauss delta size) (fun g => Ok (g * / ((PI / 180) * (PI / 180))))
    end.
  Definition s_value (s : spatial) (dir : Dir) : outcome R := shape (s_kind s) (sep dir (s_dir s) * 180 / PI) (s_size s).

  (** RadialDisk.h 80-82, RadialGaussian.h 79-82. *)
  Definition s_mapRadius (s : spatial) : R := match s_kind s with Disk => s_size s | Gaussian => 5 * s_size s end.

  (** RadialDisk.cxx 121-128, RadialGaussian.cxx 135-142, getDiffRespLimits:
      the limits that are set, before the end of a function that is declared to
      return a number and does not. *)
  Definition limits (s : spatial) (dir : Dir) : (R * R) * (R * R) :=
    let d := sep dir (s_dir s) in
    ((cos (match s_kind s with Disk => d | Gaussian => 2 * d end + 3 * s_size s * PI / 180), 1), (0, 2 * PI)).
  Definition getDiffRespLimits (s : spatial) (dir : Dir) : outcome R := UB.

  (** ** Diffuse sources *)

  (** DiffuseSource.cxx 93-121, 240-269, 379-398: by the kind of the spatial
      distribution.  [Map radius integral ref] is a map with these results of
      the external map functions; the radius is kept in radians. *)
  Inductive spatialDist :=
  | ConstantValue
  | Spatial (s : spatial)
  | Profile (p : profile)
  | MapDist (radius : R) (integral : R -> outcome R) (ref : Dir).

  (** DiffuseSource.h 224-233. *)
  Record diffuse := mkDiffuse { d_dist : spatialDist; d_radius : R }.

  Definition new_diffuse (d : spatialDist) : diffuse := mkDiffuse d (-1).

  Definition isMoveable (s : diffuse) : bool := match d_dist s with MapDist _ _ _ => false | _ => true end.

  Definition moveSource (s : diffuse) (ra dec : R) : outcome diffuse :=
    match d_dist s with
    | ConstantValue => Ok s
    | Spatial f => Ok (mkDiffuse (Spatial (s_setCenter f ra dec)) (d_radius s))
    | Profile p => Ok (mkDiffuse (Profile (p_setCenter p ra dec)) (d_radius s))
    | MapDist _ _ _ => Throw
    end.

  (** [gal_center]: the constant of line 241. *)
  Variable gal_center : Dir.
  Definition mapRefDir (s : diffuse) : outcome Dir :=
    match d_dist s with
    | ConstantValue => Ok gal_center
    | Spatial f => Ok (s_dir f)
    | Profile p => p_getCenter p
    | MapDist _ _ ref => Ok ref
    end.

  Definition d_angularIntegral (s : diffuse) (energy : R) : outcome R :=
    match d_dist s with
    | ConstantValue => Ok (4 * PI)
    | Spatial _ => Ok 1
    | Profile p => angularIntegral (p_theta p) (p_profile p)
    | MapDist _ g _ => g energy
    end.

  Definition computeMapRadius (s : diffuse) : outcome R :=
    match d_dist s with
    | ConstantValue => Ok 180
    | Spatial f => Ok (s_mapRadius f)
    | Profile p => p_mapRadius p
    | MapDist r _ _ => Ok (r * 180 / PI)
    end.

  (** DiffuseSource.h 115-120, mapRadius, which keeps its result. *)
  Definition mapRadius (s : diffuse) : diffuse * outcome R :=
    if Rltb (d_radius s) 0 then
      match computeMapRadius s with
      | Ok r => (mkDiffuse (d_dist s) r, Ok r)
      | o => (s, o)
      end
    else (s, Ok (d_radius s)).

  (** ** Directions of point sources *)

  (** SkyDirFunction.h and .cxx: the direction kept besides its parameters. *)
  Record skydir := mkSkydir { k_pra : R; k_pdec : R; k_ra : R; k_dec : R; k_dir : Dir }.
  Inductive kpar := KRA | KDEC | KOther.
  Definition new_skydir (ra dec : R) : skydir := mkSkydir ra dec ra dec (mkdir ra dec).

  (** SkyDirFunction.h 40-43 and .cxx 40-51: the base class throws
      (ParameterNotFound) first for an unknown name. *)
  Definition k_setParam (s : skydir) (par : kpar) (x : R) : outcome skydir :=
    match par with
    | KRA => Ok (mkSkydir x (k_pdec s) x (k_dec s) (mkdir x (k_dec s)))
    | KDEC => Ok (mkSkydir (k_pra s) x (k_ra s) x (mkdir (k_ra s) x))
    | KOther => Throw
    end.
End Sky.

(** ** Convolution *)

(** RadialDisk.cxx 46-54, the integrand over the distance [xp] from the point of
    evaluation, which is [x] from the centre of the disk. *)
Definition disk_integrand (fn : R -> R) (x sigma xp : R) : outcome R :=
  if Reqb sigma 0 then UB else
  obind (if Rltb 1 ((xp + x) / sigma) then
           (if Reqb (2 * x * xp) 0 then UB else
            let c := (x * x + xp * xp - sigma * sigma) / (2 * x * xp) in
            if (Rltb c (-1) || Rltb 1 c)%bool then UB else Ok (2 * acos c))
         else Ok (2 * PI)) (fun dphi => Ok (xp * fn xp * dphi / (PI * (sigma * sigma)))).

(** RadialDisk.cxx 60-61: the range of integration. *)
Definition disk_range (x sigma : R) : R * R := (Rmax (x - sigma) 0, x + sigma).

(** RadialGaussian.cxx 50-59 and 65-78; [bessel] is gsl_sf_bessel_I0_scaled.
    The lower limit is never negative, so the first of the two integrals, 72-74,
    is never taken, and the second starts from zero. *)
Definition gauss_integrand (bessel : R -> R) (fn : R -> R) (x sigma xp : R) : outcome R :=
  if Reqb sigma 0 then UB else
  let s2 := sigma * sigma in
  let xx := x * xp / s2 in
  Ok (xp * fn xp * bessel xx * exp (xx - (x * x + xp * xp) / (2 * s2)) / s2).

Definition gauss_ranges (x sigma : R) : list (R * R) :=
  let xmin := Rmax (x - 6 * sigma) 0 in
  (if Rltb xmin 0 then [(xmin, 0)] else []) ++ [(0, x + 6 * sigma)].

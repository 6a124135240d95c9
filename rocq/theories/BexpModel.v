(** Model of BinnedExposure and BinnedExposureBase: the exposure tabulated on
    the pixels of a sky projection and on a list of energies, its look-up, and
    the file it is written to (src/BinnedExposure.cxx, src/BinnedExposureBase.cxx).

    Doubles and the floats of the table are real numbers.  Sky directions, names
    of projections and the projections themselves (astro::SkyProj) are external:
    [pix2dir g x y] is the direction of the pixel coordinates (x, y), none where
    the projection throws, and [dir2pix g d] the pixel coordinates of a
    direction.  [expo d r e] stands for expCube().value(d, Aeff(e, r), e). *)
From Coq Require Import Reals List.
From Flocq Require Import Core.
From Verif Require Import Base AccumModel EgridModel.
Import ListNotations.
Local Open Scope R_scope.
Local Open Scope list_scope.

(** BinnedExposureBase.h 44-46. *)
Definition fracDiff (target result : R) : R := Rabs ((target - result) / target).

(** std::find. *)
Fixpoint find_from (p : R -> bool) (xx : list R) (i : nat) : option nat :=
  match xx with [] => None | a :: l => if p a then Some i else find_from p l (S i) end.

(** BinnedExposureBase.cxx 39-58, findNearest: the position of the first equal
    entry, or else of the first entry within the tolerance.  The fractional
    difference from a requested energy of zero is infinite or NaN and never
    below the tolerance. *)
Definition findNearest (xx : list R) (x tol : R) : outcome nat :=
  match find_from (fun a => Reqb a x) xx 0 with
  | Some k => Ok k
  | None => match find_from (fun a => if Reqb x 0 then false else Rltb (fracDiff x a) tol) xx 0 with
            | Some k => Ok k
            | None => Throw
            end
  end.

(** BinnedExposureBase.cxx 108-117, setCosThetaBounds: (costhmin, costhmax). *)
Definition setCosThetaBounds (thmin thmax : R) : R * R :=
  (if Rltb thmax 180 then cos (thmax * PI / 180) else -1, if Rltb 0 thmin then cos (thmin * PI / 180) else 1).

(** BinnedExposureBase.cxx 119-124, Aeff::value; [base] is ExposureCube::Aeff::value. *)
Definition Aeff_value (bounds : R * R) (base : R -> R -> R) (cosTheta phi : R) : R :=
  if (Rltb cosTheta (fst bounds) || Rltb (snd bounds) cosTheta)%bool then 0 else base cosTheta phi.

Section BinnedExposure.
  Context {Name Dir Resp : Type}.

  (** The arguments of astro::SkyProj (BinnedExposure.h 82-93). *)
  Record geometry := mkGeometry {
    g_name : Name;
    g_galactic : bool;
    g_crpix : R * R;
    g_crval : R * R;
    g_cdelt : R * R;
    g_crota2 : R }.

  Variable pix2dir : geometry -> R -> R -> option Dir.
  Variable dir2pix : geometry -> Dir -> R * R.
  Variable expo : Dir -> Resp -> R -> R.

  (** BinnedExposure.h 80-95 and BinnedExposureBase.h 103-123.  [b_label] holds
      m_proj_name and m_isGalactic; it is none when m_isGalactic was never set. *)
  Record bexp := mkBexp {
    b_energies : list R;
    b_nx : nat;
    b_ny : nat;
    b_ne : nat;
    b_map : list R;
    b_proj : geometry;
    b_label : option (Name * bool);
    b_enforce : bool }.

  (** BinnedExposure.cxx 290-302: one pixel.  Indices are unsigned 32-bit
      numbers in the code; the maps are assumed smaller than that. *)
  Definition fill_pixel (resps : list Resp) (energies : list R) (nx ny i j : nat) (d : Dir) (map : list R) : outcome (list R) :=
    mfold (fun map k =>
      let indx := ((k * ny + j) * nx + i)%nat in
      mfold (fun map r =>
        obind (vec_at energies k) (fun e =>
        obind (vec_at map indx) (fun v => Ok (upd map indx (v + expo d r e)))))
        resps map)
      (seq 0 (length energies)) map.

  (** BinnedExposure.cxx 248-317, computeMap. *)
  Definition computeMap (resps : list Resp) (g : geometry) (energies : list R) (nx ny : nat) (map0 : list R) : outcome (list R) :=
    let map := vec_resize map0 (nx * ny * length energies) 0 in
    mfold (fun map j =>
      mfold (fun map i =>
        match pix2dir g (INR (i + 1)) (INR (j + 1)) with
        | None => Ok map
        | Some d => fill_pixel resps energies nx ny i j d map
        end) (seq 0 nx) map)
      (seq 0 ny) map.

  (** BinnedExposure.cxx 50-56: geometric means of adjacent energies; size()-1
      of an empty list would wrap. *)
  Definition mean_energies (energies : list R) : outcome (list R) :=
    match energies with
    | [] => UB
    | _ =>
      obind (mfold (fun es k =>
        obind (vec_get es k) (fun a => obind (vec_get es (k + 1)) (fun b => vec_set es k (sqrt (a * b)))))
        (seq 0 (length energies - 1)) energies) (fun es =>
      Ok (removelast es))
    end.

  (** BinnedExposure.cxx 40-58 with 185-206: from a counts map with geometry
      [g], [nx] by [ny] pixels and the given energies. *)
  Definition from_counts_map (resps : list Resp) (g : geometry) (nx ny : nat) (energies : list R) (useEbounds : bool) (edisp_bins : nat) : outcome bexp :=
    let ne := length energies in
    obind (expand_energies energies edisp_bins) (fun es =>
    obind (if useEbounds then Ok (es, ne) else obind (mean_energies es) (fun es' => Ok (es', (ne - 1)%nat))) (fun en =>
    obind (computeMap resps g (fst en) nx ny []) (fun map =>
    Ok (mkBexp (fst en) nx ny (snd en) map g (Some (g_name g, g_galactic g)) false)))).

  (** BinnedExposure.cxx 60-70 with 208-229: from parameters. *)
  Definition from_pars (resps : list Resp) (energies : list R) (nx ny : nat) (binsz xref yref axisrot : R) (proj : Name) (gal : bool) : outcome bexp :=
    let g := mkGeometry proj gal (INR nx / 2 + 1 / 2, INR ny / 2 + 1 / 2) (xref, yref) (- binsz, binsz) axisrot in
    obind (computeMap resps g energies nx ny []) (fun map =>
    Ok (mkBexp energies nx ny (length energies) map g (Some (proj, gal)) false)).

  (** BinnedExposure.cxx 60-70 with 231-246: the default map of the whole sky. *)
  Definition from_energies (car : Name) (resps : list Resp) (energies : list R) : outcome bexp :=
    let g := mkGeometry car false (INR 360 / 2 + 1 / 2, INR 180 / 2 + 1 / 2) (180, 0) (-1, 1) 0 in
    obind (computeMap resps g energies 360 180 []) (fun map =>
    Ok (mkBexp energies 360 180 (length energies) map g (Some (car, false)) false)).

  (** BinnedExposureBase.h 81-83. *)
  Definition setBoundaryFlag (b : bexp) (flag : bool) : bexp :=
    mkBexp (b_energies b) (b_nx b) (b_ny b) (b_ne b) (b_map b) (b_proj b) (b_label b) flag.

  (** static_cast<int>(pixel - 1), twice (BinnedExposure.cxx 118-119). *)
  Definition pixel_of (b : bexp) (d : Dir) : Z * Z :=
    let p := dir2pix (b_proj b) d in (Ztrunc (fst p - 1), Ztrunc (snd p - 1)).

  Definition inside (b : bexp) (ij : Z * Z) : bool :=
    let '(i, j) := ij in ((0 <=? i) && (i <? Z.of_nat (b_nx b)) && (0 <=? j) && (j <? Z.of_nat (b_ny b)))%Z%bool.

  (** BinnedExposure.cxx 104-138, operator(): the index is computed in signed
      arithmetic and converted to an unsigned 32-bit number. *)
  Definition lookup (b : bexp) (energy : R) (d : Dir) : outcome R :=
    obind (findNearest (b_energies b) energy (1 / 100000)) (fun k =>
    let '(i, j) := pixel_of b d in
    let indx := Z.modulo ((Z.of_nat k * Z.of_nat (b_ny b) + j) * Z.of_nat (b_nx b) + i) (2 ^ 32) in
    let within := (inside b (i, j) && (k <? length (b_energies b))%nat)%bool in
    if (b_enforce b && negb within)%bool then Throw else
    match nth_error (b_map b) (Z.to_nat indx) with Some v => Ok v | None => Ok 0 end).

  (** BinnedExposure.cxx 141-182, get_exposures_for_dir. *)
  Definition get_exposures_for_dir (b : bexp) (d : Dir) (energies : list R) : outcome (list R) :=
    let '(i, j) := pixel_of b d in
    let pixel_indx := Z.modulo (j * Z.of_nat (b_nx b) + i) (2 ^ 32) in
    let within := inside b (i, j) in
    if (b_enforce b && negb within)%bool then Throw else
    let pixel_step := (b_nx b * b_ny b)%nat in
    mfold (fun out e =>
      obind (findNearest (b_energies b) e (1 / 100000)) (fun k =>
      let energy_bounds := (k <? length (b_energies b))%nat in
      if (b_enforce b && negb energy_bounds)%bool then Throw else
      if (within && energy_bounds)%bool
      then obind (vec_get (b_map b) (pixel_step * k + Z.to_nat pixel_indx)) (fun v => Ok (out ++ [v]))
      else Ok (out ++ [0])))
      energies [].

  (** What writeOutput puts into the file. *)
  Record fits := mkFits {
    f_dims : nat * nat * nat;
    f_data : list R;
    f_proj : geometry;
    f_energies : list R }.

  (** BinnedExposure.cxx 319-390, writeOutput: the reference pixel is
      recomputed from the size of the image and the rotation is not written, so
      that a reader finds none. *)
  Definition writeOutput (b : bexp) : outcome fits :=
    match b_label b with
    | None => UB
    | Some (name, gal) =>
        Ok (mkFits (b_nx b, b_ny b, b_ne b) (b_map b)
              (mkGeometry name gal ((INR (b_nx b) + 1) / 2, (INR (b_ny b) + 1) / 2)
                 (g_crval (b_proj b)) (g_cdelt (b_proj b)) 0)
              (b_energies b))
    end.

  (** BinnedExposure.cxx 72-99 with BinnedExposureBase.cxx 85-100: from a file. *)
  Definition from_file (f : fits) : bexp :=
    let '(nx, ny, ne) := f_dims f in
    mkBexp (f_energies f) nx ny ne (f_data f) (f_proj f) None false.
End BinnedExposure.

(** Model of how a sky map is filled, integrated, rebinned and searched:
    src/WcsMap2.cxx.

    Pixel values and solid angles (floats) are real numbers; divisions by zero,
    which give infinities or NaN, are marked as undefined.  The projection
    (astro::SkyProj) is external and appears through the solid angles and the
    directions of the pixels. *)
From Coq Require Import Reals List ZArith.
From Verif Require Import Base AccumModel.
Import ListNotations.
Local Open Scope R_scope.
Local Open Scope list_scope.

Notation plane_t := (list (list R)).
Notation image_t := (list (list (list R))).

(** WcsMap2.cxx 69-89, foldVector, and 92-106, fillSolidAngles: an iterator
    runs through the vector.  [take_row n v] is one row of [n] pixels and what
    is left; a vector that is too short leaves zeros. *)
Fixpoint take_row (n : nat) (v : list R) : list R * list R :=
  match n with
  | O => ([], v)
  | S n' => match v with
            | [] => (repeat 0 n, [])
            | x :: v' => let '(row, rest) := take_row n' v' in (x :: row, rest)
            end
  end.

Fixpoint take_plane (n2 n1 : nat) (v : list R) : plane_t * list R :=
  match n2 with
  | O => ([], v)
  | S m => let '(row, rest) := take_row n1 v in let '(rows, rest') := take_plane m n1 rest in (row :: rows, rest')
  end.

Fixpoint take_image (n3 n2 n1 : nat) (v : list R) : image_t :=
  match n3 with
  | O => []
  | S m => let '(plane, rest) := take_plane n2 n1 v in plane :: take_image m n2 n1 rest
  end.

Definition foldVector (v : list R) (n1 n2 n3 : nat) : image_t := take_image n3 n2 n1 v.

(** fillSolidAngles appends to its output; [sas] are the solid angles of the
    pixels of the counts map. *)
Definition fillSolidAngles (sas : list R) (n1 n2 : nat) (out : plane_t) : plane_t := out ++ fst (take_plane n2 n1 sas).

(** WcsMap2.cxx 109-124, convertToDifferential. *)
Definition diff_row (f : R) (sa row : list R) : outcome (list R) :=
  mfold (fun row i =>
    obind (vec_get row i) (fun v => obind (vec_get sa i) (fun s => if Reqb s 0 then UB else vec_set row i (v * (f / s)))))
    (seq 0 (length row)) row.

Definition convertToDifferential (image : image_t) (widths : list R) (sas : plane_t) : outcome image_t :=
  mfold (fun image k =>
    obind (vec_get image k) (fun plane => obind (vec_get widths k) (fun w =>
    if Reqb w 0 then UB else
    obind (mfold (fun plane j =>
      obind (vec_get sas j) (fun sa => obind (vec_get plane j) (fun row =>
      obind (diff_row (1 / w) sa row) (fun row' => vec_set plane j row')))) (seq 0 (length sas)) plane) (fun plane' =>
    vec_set image k plane'))))
    (seq 0 (length widths)) image.

(** WcsMap2.cxx 126-143, convertToIntegral: [out] is written through the
    running index. *)
Definition int_row (w : R) (sa row : list R) (st : list R * nat) : outcome (list R * nat) :=
  mfold (fun '(out, idx) i =>
    obind (vec_get row i) (fun v => obind (vec_get sa i) (fun s => obind (vec_set out idx (v * w * s)) (fun out' => Ok (out', S idx)))))
    (seq 0 (length row)) st.

Definition convertToIntegral (out : list R) (image : image_t) (widths : list R) (sas : plane_t) : outcome (list R) :=
  obind (mfold (fun st k =>
    obind (vec_get image k) (fun plane => obind (vec_get widths k) (fun w =>
    mfold (fun st j => obind (vec_get sas j) (fun sa => obind (vec_get plane j) (fun row => int_row w sa row st))) (seq 0 (length sas)) st)))
    (seq 0 (length widths)) (out, 0%nat)) (fun st => Ok (fst st)).

(** WcsMap2.h 168-182: the geometry and contents that matter here.  The
    reference direction is fixed throughout. *)
Record rmap := mkRmap {
  r_image : image_t;
  r_sa : plane_t;
  r_n1 : nat;
  r_n2 : nat;
  r_crpix : R * R;
  r_cdelt : R * R;
  r_periodic : bool;
  r_energies : list R;
  r_values : list R;
  r_total : R }.

(** WcsMap2.cxx 920-926, getCorners: pixel coordinates. *)
Definition corners (n1 n2 : nat) : list (nat * nat) := [(1, 1); (1, n2); (n1, n2); (n1, 1)]%nat.

(** WcsMap2.cxx 758-790, the solid angle of a pixel from the directions
    (longitude, latitude) of points in it; [sep] is the angle between two
    directions.  The second assignment to left in the code at the pole, line
    774, where bottom is meant, is kept. *)
Definition solid_angle (pix2sph : R -> R -> R * R) (sep : R * R -> R * R -> R) (x y : R) : R :=
  let center := pix2sph x y in
  let atpole := Reqb (Rabs (snd center)) 90 in
  let bottom := pix2sph x (y - 1 / 2) in
  let right := if atpole then pix2sph (x + 1 / 2) (y - 1 / 4) else pix2sph (x + 1 / 2) y in
  let left := if atpole then pix2sph x (y - 1 / 2) else pix2sph (x - 1 / 2) y in
  let top := if atpole then pix2sph x y else pix2sph x (y + 1 / 2) in
  let dOmega := Rabs (sep left right * ((snd top - snd bottom) * PI / 180)) in
  if atpole then dOmega * 2 else dOmega.

Section Geometry.
  (** The solid angle of the pixel (x, y), counted from one, of the map with
      the given reference pixel and pixel size. *)
  Variable sky : R * R -> R * R -> nat -> nat -> R.

  (** WcsMap2.cxx 805-818, solidAngles(): computed on first use, column by
      column. *)
  Definition solidAngles (w : rmap) : plane_t :=
    match r_sa w with
    | [] => map (fun i => map (fun j => sky (r_crpix w) (r_cdelt w) (i + 1)%nat (j + 1)%nat) (seq 0 (r_n2 w))) (seq 0 (r_n1 w))
    | t => t
    end.

  Definition get2 (t : plane_t) (a b : nat) : outcome R := obind (vec_get t a) (fun r => vec_get r b).

  (** WcsMap2.cxx 929-957, computeMapIntegrals: one plane. *)
  Definition plane_integral (sa : plane_t) (plane : plane_t) (n1 n2 : nat) : outcome R :=
    mfold (fun acc j => mfold (fun acc i =>
      obind (get2 sa i j) (fun s => obind (get2 plane j i) (fun v => Ok (acc + s * v)))) (seq 0 n1) acc) (seq 0 n2) 0.

  Definition computeMapIntegrals (w : rmap) : outcome rmap :=
    let sa := solidAngles w in
    obind (mfold (fun values k => obind (vec_get (r_image w) k) (fun plane => obind (plane_integral sa plane (r_n1 w) (r_n2 w)) (fun v => Ok (values ++ [v]))))
      (seq 0 (length (r_energies w))) []) (fun values =>
    obind (match r_energies w with
           | [] => UB
           | [_] => vec_at values 0
           | _ => mfold (fun t k =>
                    obind (vec_get values (k + 1)) (fun v1 => obind (vec_get (r_energies w) (k + 1)) (fun e1 =>
                    obind (vec_get values k) (fun v0 => obind (vec_get (r_energies w) k) (fun e0 =>
                    Ok (t + (v1 * e1 + v0 * e0) / 2 * ln (e1 / e0)))))))
                    (seq 0 (length (r_energies w) - 1)) 0
           end) (fun total =>
    Ok (mkRmap (r_image w) sa (r_n1 w) (r_n2 w) (r_crpix w) (r_cdelt w) (r_periodic w) (r_energies w) values total))).

  (** WcsMap2.cxx 353-420: from a counts map with contents [data], solid angles
      [sas], and for an intensity map the widths of its energy bins. *)
  Definition from_counts (data sas : list R) (n1 n2 : nat) (crpix cdelt : R * R) (periodic : bool) (energies : list R) (widths : option (list R)) : outcome rmap :=
    let sa := fillSolidAngles sas n1 n2 [] in
    let image := foldVector data n1 n2 (length energies) in
    obind (match widths with Some ws => convertToDifferential image ws sa | None => Ok image end) (fun image =>
    computeMapIntegrals (mkRmap image sa n1 n2 crpix cdelt periodic energies [] 0)).

  (** WcsMap2.cxx 144-226: from the pixels of a file, with the integrals. *)
  Definition from_pixels (data : list R) (n1 n2 : nat) (crpix cdelt : R * R) (periodic : bool) (energies : list R) : outcome rmap :=
    computeMapIntegrals (mkRmap (foldVector data n1 n2 (length energies)) [] n1 n2 crpix cdelt periodic energies [] 0).

  (** t[a][b] += x. *)
  Definition add2 (t : plane_t) (a b : nat) (x : R) : outcome plane_t :=
    obind (vec_get t a) (fun r => obind (vec_get r b) (fun v => obind (vec_set r b (v + x)) (fun r' => vec_set t a r'))).

  (** t[a][b] /= x. *)
  Definition div2 (t : plane_t) (a b : nat) (x : R) : outcome plane_t :=
    obind (vec_get t a) (fun r => obind (vec_get r b) (fun v =>
    if Reqb x 0 then UB else obind (vec_set r b (v / x)) (fun r' => vec_set t a r'))).

  (** WcsMap2.cxx 961-970: the number of blocks. *)
  Definition blocks (n factor : nat) : nat :=
    let d := (factor - n mod factor)%nat in
    let d := if (d =? factor)%nat then 0%nat else d in ((n + d) / factor)%nat.

  (** WcsMap2.cxx 1018-1026 and 1035-1047: every pixel is added to its block. *)
  Definition gather (n1 n2 factor : nat) (g : nat -> nat -> outcome R) (t : plane_t) : outcome plane_t :=
    mfold (fun t i => mfold (fun t j =>
      obind (g i j) (fun x => add2 t (j / factor) (i / factor) x)) (seq 0 n2) t) (seq 0 n1) t.

  Definition zeros (n1 n2 : nat) : plane_t := repeat (repeat 0 n1) n2.

  (** WcsMap2.cxx 959-1063, rebin.  A factor of zero divides by zero. *)
  Definition rebin (w : rmap) (factor : nat) (average : bool) : outcome rmap :=
    if (factor =? 0)%nat then UB else
    let n1 := blocks (r_n1 w) factor in
    let n2 := blocks (r_n2 w) factor in
    let f := INR factor in
    let crpix := ((fst (r_crpix w) - 1 / 2) / f + 1 / 2, (snd (r_crpix w) - 1 / 2) / f + 1 / 2) in
    let cdelt := (fst (r_cdelt w) * f, snd (r_cdelt w) * f) in
    let sa := solidAngles w in
    obind (if average then gather (r_n1 w) (r_n2 w) factor (fun i j => get2 sa i j) (zeros n1 n2) else Ok []) (fun sums =>
    obind (mfold (fun image k =>
      obind (vec_get (r_image w) k) (fun plane =>
      obind (gather (r_n1 w) (r_n2 w) factor
               (fun i j => obind (get2 plane j i) (fun v => if average then obind (get2 sa i j) (fun s => Ok (v * s)) else Ok v)) (zeros n1 n2)) (fun t =>
      obind (if average
             then mfold (fun t ii => mfold (fun t jj => obind (get2 sums jj ii) (fun s => div2 t jj ii s)) (seq 0 n2) t) (seq 0 n1) t
             else Ok t) (fun t => vec_set image k t))))
      (seq 0 (length (r_energies w))) (r_image w)) (fun image =>
    computeMapIntegrals (mkRmap image [] n1 n2 crpix cdelt (r_periodic w) (r_energies w) (r_values w) (r_total w)))).
End Geometry.

(** WcsMap2.cxx 1066-1074, check_negative_pixels. *)
Definition check_negative_pixels (plane : plane_t) : outcome unit :=
  if existsb (fun row => existsb (fun v => Rltb v 0) row) plane then Throw else Ok tt.

Section MinMax.
  (** [dirs x y] is the direction of the pixel (x, y), counted from one;
      [dist] the distance to the given direction. *)
  Context {Dir : Type}.
  Variable dirs : nat -> nat -> Dir.
  Variable dist : Dir -> R.

  Record extremes := mkExt { x_min : Dir; x_mind : R; x_max : Dir; x_maxd : R }.

  (** One step of each of the four loops. *)
  Definition look (s : extremes) (d : Dir) : extremes :=
    let r := dist d in
    let s := if Rltb r (x_mind s) then mkExt d r (x_max s) (x_maxd s) else s in
    if Rltb (x_maxd s) r then mkExt (x_min s) (x_mind s) d r else s.

  (** WcsMap2.cxx 856-917, minMaxDistPixels. *)
  Definition minMaxDistPixels (n1 n2 : nat) : Dir * Dir :=
    let d0 := dirs 1 1 in
    let s := mkExt d0 (dist d0) d0 (dist d0) in
    let s := fold_left (fun s i => look s (dirs i 1%nat)) (seq 2 (n1 - 1)) s in
    let s := fold_left (fun s j => look s (dirs n1 j)) (seq 2 (n2 - 1)) s in
    let s := fold_left (fun s i => look s (dirs i n2)) (seq 1 (n1 - 1)) s in
    let s := fold_left (fun s j => look s (dirs 1%nat j)) (seq 2 (n2 - 2)) s in
    (x_min s, x_max s).
End MinMax.

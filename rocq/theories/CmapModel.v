(** Counts maps and the maps of likelihood weights: src/CountsMapBase.cxx,
    src/CountsMap.cxx, src/CountsMapHealpix.cxx.

    Contents are real numbers (the code stores floats); a division by zero,
    whose result is not a finite number, is [UB].  The sky projections, the
    solid angle of a quadrangle, the PSF peak, and the evtbin binners are
    external.  Progress dots written to the terminal are not modelled, but the
    remainder that decides when to write one is. *)
From Coq Require Import Reals String Ascii.
From Verif Require Import Base AccumModel HistModel.
Open Scope string_scope.
Open Scope list_scope.
Open Scope nat_scope.

(** ** Energy bins *)

(** CountsMapBase.cxx:46-56; [old] is the content of the output vector. *)
Definition fillEnergyBinWidths (old edges : list R) : outcome (list R) :=
  match length edges with
  | 0 => Ok old
  | S nb =>
      mfold (fun ws k =>
        obind (vec_get edges (S k)) (fun b =>
        obind (vec_get edges k) (fun a => vec_set ws k (b - a)%R)))
        (seq 0 nb) (vec_resize old nb 0%R)
  end.

(** CountsMapBase.cxx:57-67. *)
Definition fillEnergyBinGeomCenters (old edges : list R) : outcome (list R) :=
  match length edges with
  | 0 => Ok old
  | S nb =>
      mfold (fun cs k =>
        obind (vec_get edges (S k)) (fun b =>
        obind (vec_get edges k) (fun a => vec_set cs k (sqrt (b * a))%R)))
        (seq 0 nb) (vec_resize old nb 0%R)
  end.

(** ** Weights of several components *)

(** The values the iterators point at: every vector of the list read at the
    same place (CountsMapBase.cxx:74, 84; all iterators are stepped together at
    118-121, so they are one index). *)
Definition values_at (vects : list (list R)) (idx : nat) : outcome (list R) :=
  omap (fun v => vec_get v idx) vects.

(** CountsMapBase.cxx:68-78: [bmin] starts at 1e99 in a float, which is
    infinity: [None]. *)
Definition bmin_of (vals : list R) : option R :=
  fold_left (fun m b => match m with
                        | None => Some b
                        | Some x => if Rltb b x then Some b else Some x
                        end) vals None.

(** CountsMapBase.cxx:79-88: no maps gives an infinite minimum and zero. *)
Definition sumk2_of (bmin : R) (vals : list R) : outcome R :=
  if Rleb bmin 0 then Ok 0%R
  else mfold (fun s b => if Reqb b 0 then UB else Ok (s + bmin / b * (bmin / b))%R) vals 0%R.

(** CountsMapBase.cxx:91-98; infinity over something is not a number. *)
Definition getAlphaWts (eps2 : R) (vals : list R) : outcome R :=
  match bmin_of vals with
  | None => UB
  | Some bmin =>
      obind (sumk2_of bmin vals) (fun s =>
      if Reqb (1 + eps2 * bmin * s) 0 then UB
      else Ok ((1 + eps2 * bmin) / (1 + eps2 * bmin * s))%R)
  end.

(** CountsMapBase.cxx:100-124: [idx % nprint] with [nprint = ndata/20]. *)
Definition getAlphaVector (alphaVect : list R) (eps2 : R) (vects : list (list R)) : outcome (list R) :=
  mfold (fun av idx =>
    if length alphaVect / 20 =? 0 then UB
    else obind (values_at vects idx) (fun vals =>
         obind (getAlphaWts eps2 vals) (fun a => vec_set av idx a)))
    (seq 0 (length alphaVect)) alphaVect.

(** CountsMapBase.cxx:126-148. *)
Definition getWts (wts : list R) (eps2 : R) (alphaVect beffVect : list R) : outcome (list R) :=
  mfold (fun ws idx =>
    if length beffVect / 20 =? 0 then UB
    else obind (vec_get beffVect idx) (fun b =>
         if Reqb (1 + eps2 * b) 0 then UB
         else match nth_error alphaVect idx with
              | Some a => vec_set ws idx (1 / (1 + eps2 * b) * a)%R
              | None => vec_set ws idx (1 / (1 + eps2 * b))%R
              end))
    (seq 0 (length wts)) wts.

(** CountsMapBase.cxx:150-161, a map being the vector of its contents; [None]
    is the null pointer. *)
Definition makeAlphaMap (eps2 : R) (maps : list (list R)) : outcome (option (list R)) :=
  match maps with
  | [] => Ok None
  | m0 :: _ => obind (getAlphaVector m0 eps2 maps) (fun a => Ok (Some a))
  end.

(** CountsMapBase.cxx:174-182. *)
Definition makeWtsMap (eps2 : R) (alphaMap : option (list R)) (beffMap : list R) : outcome (list R) :=
  getWts beffMap eps2 (match alphaMap with Some a => a | None => [] end) beffMap.

(** ** Effective background *)

(** CountsMap.cxx:276-279, CountsMapHealpix.cxx:151-154; the fuel is the number
    of steps after which the loop has ended for a positive step. *)
Fixpoint add_down (fuel : nat) (fillIt kinteg : Z) (kStep : nat) (means : list R)
    (emin addend : R) (out : list R) : outcome (list R) :=
  match fuel with
  | 0 => UB
  | S f =>
      if (fillIt <? 0)%Z then Ok out
      else if (kinteg <? 0)%Z then UB
      else obind (vec_get means (Z.to_nat kinteg)) (fun m =>
           if Rltb m emin then Ok out
           else obind (vec_get out (Z.to_nat fillIt)) (fun x =>
                obind (vec_set out (Z.to_nat fillIt) (x + addend)%R) (fun out' =>
                add_down f (fillIt - Z.of_nat kStep) (kinteg - 1) kStep means emin addend out')))
  end.

(** CountsMap.cxx:269-279, CountsMapHealpix.cxx:144-154: one pixel of one
    plane; the state is the running index and the contents. *)
Definition bkg_pixel (means : list R) (efact : R) (kStep k : nat) (mean factor : R)
    (st : nat * list R) (c : R) : outcome (nat * list R) :=
  let (idx, out) := st in
  obind (vec_set out idx 0%R) (fun out' =>
  if Reqb efact 0 then UB
  else obind (add_down (S (S idx)) (Z.of_nat idx) (Z.of_nat k) kStep means (mean / efact) (c * factor) out')
         (fun out'' => Ok (S idx, out''))).

Section Bkg.
(** MeanPsf::peakValue. *)
Variable peak : R -> R.

(** CountsMap.cxx:230-286; [conv] is the convolved map, plane by plane and row
    by row, [data] the contents of the counts map, copied to the output. *)
Definition makeBkgEffMap (energies : list R) (nx ny : nat) (efact : R)
    (conv : list (list (list R))) (data : list R) : outcome (list R) :=
  if length energies =? 0 then Throw else
  obind (fillEnergyBinWidths (repeat 0%R (length energies - 1)) energies) (fun widths =>
  obind (fillEnergyBinGeomCenters (repeat 0%R (length energies - 1)) energies) (fun means =>
  obind (mfold (fun st k =>
    obind (vec_get means k) (fun mean =>
    obind (vec_get widths k) (fun width =>
    if Reqb (peak mean) 0 then UB
    else obind (vec_get conv k) (fun plane =>
         mfold (fun st row =>
           mfold (bkg_pixel means efact (nx * ny) k mean (width / peak mean)) row st)
           plane st))))
    (seq 0 (length energies - 1)) (0, data)) (fun st => Ok (snd st)))).

(** CountsMapHealpix.cxx:108-161: the planes are not cut into rows, and a plane
    with fewer pixels than the map is read out of bounds. *)
Definition makeBkgEffMap_hpx (energies : list R) (npix : nat) (efact : R)
    (conv : list (list R)) (data : list R) : outcome (list R) :=
  if length energies =? 0 then Throw else
  obind (fillEnergyBinWidths (repeat 0%R (length energies - 1)) energies) (fun widths =>
  obind (fillEnergyBinGeomCenters (repeat 0%R (length energies - 1)) energies) (fun means =>
  obind (mfold (fun st k =>
    obind (vec_get means k) (fun mean =>
    obind (vec_get widths k) (fun width =>
    if Reqb (peak mean) 0 then UB
    else obind (vec_get conv k) (fun plane =>
         mfold (fun st i =>
           obind (vec_get plane i) (fun c =>
           bkg_pixel means efact npix k mean (width / peak mean) st c))
           (seq 0 npix) st))))
    (seq 0 (length energies - 1)) (0, data)) (fun st => Ok (snd st)))).
End Bkg.

(** ** Geometry of a map in a projection *)

(** CountsMap.h: m_crpix, m_crval, m_cdelt (three entries each), m_axis_rot,
    m_use_lb, m_proj_name, m_naxes. *)
Record geom := mk_geom {
  g_naxes : nat * nat * nat;
  g_crpix : R * R * R;
  g_crval : R * R * R;
  g_cdelt : R * R * R;
  g_rot : R;
  g_lb : bool;
  g_proj : string }.

(** CountsMap.cxx:351-363. *)
Definition init_geom (nx ny nenergies : nat) (ref_ra ref_dec xs ys emin emax rot : R)
    (use_lb : bool) (proj : string) : outcome geom :=
  if nenergies =? 1 then UB
  else Ok (mk_geom (nx, ny, nenergies)
         ((INR nx + 1) / 2, (INR ny + 1) / 2, 1)%R
         (ref_ra, ref_dec, emin)
         (- xs, ys, ln (emax / emin) / (INR nenergies - 1))%R
         rot use_lb proj).

(** static_cast<int> of a non-negative number. *)
Definition to_int (x : R) : Z := (up x - 1)%Z.

(** CountsMap.cxx:631-638. *)
Definition checkMapConforms (g : geom) : bool :=
  let '(nx, ny, _) := g_naxes g in
  let '(c1, c2, _) := g_crpix g in
  let '(d1, d2, _) := g_cdelt g in
  (to_int (2 * c1) =? to_int (INR nx + 1))%Z && (to_int (2 * c2) =? to_int (INR ny + 1))%Z
  && Reqb (Rabs d1) (Rabs d2).

(** CountsMap.cxx:426-429. *)
Definition pixelSize (g : geom) : R :=
  let '(d1, d2, _) := g_cdelt g in
  if Rleb (Rabs d1) (Rabs d2) then Rabs d1 else Rabs d2.

(** The header of a FITS file: records by name. *)
Inductive hval := HNum (x : R) | HStr (s : string).
Definition header := list (string * hval).
Definition set_key (k : string) (v : hval) (h : header) : header :=
  (k, v) :: filter (fun p => negb (String.eqb (fst p) k)) h.
Fixpoint get_key (k : string) (h : header) : option hval :=
  match h with
  | [] => None
  | (k', v) :: h' => if String.eqb k' k then Some v else get_key k h'
  end.
(** A missing record, or a string read as a number, throws. *)
Definition get_num (k : string) (h : header) : outcome R :=
  match get_key k h with Some (HNum x) => Ok x | _ => Throw end.
Definition get_str (k : string) (h : header) : outcome string :=
  match get_key k h with Some (HStr s) => Ok s | _ => Throw end.

(** CountsMap.cxx:498-518; [names] are the names of the axes. *)
Definition setKeywords (g : geom) (names : list string) (h : header) : outcome header :=
  let '(p1, p2, p3) := g_crpix g in
  let '(v1, v2, v3) := g_crval g in
  let '(d1, d2, d3) := g_cdelt g in
  let h := set_key "CRPIX1" (HNum p1) h in
  let h := set_key "CRPIX2" (HNum p2) h in
  let h := set_key "CRPIX3" (HNum p3) h in
  let h := set_key "CRVAL1" (HNum v1) h in
  let h := set_key "CRVAL2" (HNum v2) h in
  let h := set_key "CRVAL3" (HNum v3) h in
  let h := set_key "CDELT1" (HNum d1) h in
  let h := set_key "CDELT2" (HNum d2) h in
  let h := set_key "CDELT3" (HNum d3) h in
  let h := set_key "CROTA2" (HNum (g_rot g)) h in
  obind (if g_lb g then
           Ok (set_key "CTYPE2" (HStr ("GLAT-" ++ g_proj g)%string)
                 (set_key "CTYPE1" (HStr ("GLON-" ++ g_proj g)%string) h))
         else obind (vec_get names 0) (fun n0 => obind (vec_get names 1) (fun n1 =>
           Ok (set_key "CTYPE2" (HStr (n1 ++ "--" ++ g_proj g)%string)
                 (set_key "CTYPE1" (HStr (n0 ++ "---" ++ g_proj g)%string) h))))) (fun h =>
  obind (vec_get names 2) (fun n2 => Ok (set_key "CTYPE3" (HStr n2) h))).

(** facilities::Util::stringTokenize(s, "-", tokens): the pieces between
    hyphens, empty pieces left out. *)
Definition push_piece (p : string) (ps : list string) : list string :=
  if String.eqb p "" then ps else p :: ps.
Fixpoint tokens_from (acc s : string) : list string :=
  match s with
  | EmptyString => push_piece acc []
  | String c s' => if Ascii.eqb c "-" then push_piece acc (tokens_from "" s')
                   else tokens_from (acc ++ String c "")%string s'
  end.
Definition stringTokenize (s : string) : list string := tokens_from "" s.

(** CountsMap.cxx:299-335 on a map made by CountsMapBase.cxx:279-282, where
    m_use_lb is false; [tokens[0]] and [tokens.back()] are unchecked. *)
Definition readKeywords (dims : list nat) (h : header) : outcome geom :=
  match dims with
  | [n1; n2; n3] =>
      obind (get_num "CRPIX1" h) (fun p1 => obind (get_num "CRPIX2" h) (fun p2 =>
      obind (get_num "CRPIX3" h) (fun p3 => obind (get_num "CRVAL1" h) (fun v1 =>
      obind (get_num "CRVAL2" h) (fun v2 => obind (get_num "CRVAL3" h) (fun v3 =>
      obind (get_num "CDELT1" h) (fun d1 => obind (get_num "CDELT2" h) (fun d2 =>
      obind (get_num "CDELT3" h) (fun d3 => obind (get_num "CROTA2" h) (fun rot =>
      obind (get_str "CTYPE1" h) (fun lon => obind (get_str "CTYPE2" h) (fun _ =>
      match stringTokenize lon with
      | [] => UB
      | t0 :: ts =>
          Ok (mk_geom (n1, n2, n3) (p1, p2, p3) (v1, v2, v3) (d1, d2, d3) rot
                (String.eqb t0 "GLON") (last ts t0))
      end))))))))))))
  | _ => Throw
  end.

(** CountsMapBase.cxx:384-391: the number of bins of an axis. *)
Definition imageDimension {X} (bs : list (binner X)) (i : Z) : outcome nat :=
  if ((i <? 0) || (2 <? i))%Z then Throw
  else obind (vec_get bs (Z.to_nat i)) (fun b => Ok (nbins b)).

(** CountsMapBase.cxx:393-406 for the axis LinearBinner(0.5, n + 0.5, 1.)
    (external: bin j spans 0.5 + j to 1.5 + j); with no bin the interval -1 is
    asked for. *)
Definition axis_vector (n : nat) : outcome (list R) :=
  if n =? 0 then UB
  else Ok (map (fun j => 1 / 2 + INR j)%R (seq 0 n) ++ [(1 / 2 + INR n)%R]).

Section Pixels.
Context {Dir : Type}.
(** astro::SkyDir(x, y, projection); [None] is the wcslib error outside of the
    projection. *)
Variable sky : R -> R -> option Dir.
(** astro::SkyDir(0, 0). *)
Variable origin : Dir.
(** FitsImage::solidAngle. *)
Variable quad : Dir -> Dir -> Dir -> Dir -> R.

(** CountsMap.cxx:612-628. *)
Definition computeSolidAngle (x0 x1 y0 y1 : R) : option R :=
  match sky x0 y0, sky x0 y1, sky x1 y1, sky x1 y0 with
  | Some a, Some b, Some c, Some d => Some (quad a b c d)
  | _, _, _, _ => None
  end.

(** CountsMap.cxx:587-607: one pixel. *)
Definition one_pixel (x0 x1 y0 y1 : R) : Dir * R :=
  match sky ((x0 + x1) / 2)%R ((y0 + y1) / 2)%R, computeSolidAngle x0 x1 y0 y1 with
  | Some d, Some s => (d, s)
  | _, _ => (origin, 0%R)
  end.

(** CountsMap.cxx:569-610. *)
Definition getPixels (nx ny : nat) : outcome (list (Dir * R)) :=
  obind (axis_vector nx) (fun lons =>
  obind (axis_vector ny) (fun lats =>
  mfold (fun px j =>
    obind (vec_get lats j) (fun y0 =>
    obind (vec_get lats (S j)) (fun y1 =>
    mfold (fun px i =>
      obind (vec_get lons i) (fun x0 =>
      obind (vec_get lons (S i)) (fun x1 => Ok (px ++ [one_pixel x0 x1 y0 y1]))))
      (seq 0 (length lons - 1)) px)))
    (seq 0 (length lats - 1)) [])).

(** One loop of CountsMap.cxx:536-554: the directions of a list of places; an
    error of the projection is rethrown as another one. *)
Definition push_dirs (places : list (R * R)) (dirs : list Dir) : outcome (list Dir) :=
  mfold (fun ds p => match sky (fst p) (snd p) with
                     | Some d => Ok (ds ++ [d])
                     | None => Throw
                     end) places dirs.

(** CountsMap.cxx:521-567; the first entries exist because an axis vector is
    never empty. *)
Definition getBoundaryPixelDirs (nx ny : nat) : outcome (list Dir) :=
  obind (axis_vector nx) (fun lons =>
  obind (axis_vector ny) (fun lats =>
  obind (vec_get lons 0) (fun xa => obind (vec_get lons (length lons - 1)) (fun xb =>
  obind (vec_get lats 0) (fun ya => obind (vec_get lats (length lats - 1)) (fun yb =>
  obind (push_dirs (map (fun y => (xa, y)) lats) []) (fun ds =>
  obind (push_dirs (map (fun y => (xb, y)) lats) ds) (fun ds =>
  obind (push_dirs (map (fun x => (x, ya)) lons) ds) (fun ds =>
  push_dirs (map (fun x => (x, yb)) lons) ds))))))))).
End Pixels.

(** ** Events *)

(** evtbin::LinearBinner(0.5, n + 0.5, 1.), external. *)
Definition linear_axis (n : nat) : binner R :=
  mk_binner n (fun x => if Rltb x (1 / 2) then (-1)%Z
                        else if Rltb x (INR n + 1 / 2) then (up (x - 1 / 2) - 1)%Z else (-1)%Z).

(** evtbin::OrderedBinner on consecutive edges, external: the bin whose begin
    is at or below the value and whose end is above it. *)
Fixpoint find_bin (edges : list R) (x : R) (k : Z) : Z :=
  match edges with
  | a :: ((b :: _) as rest) => if Rleb a x && Rltb x b then k else find_bin rest x (k + 1)
  | _ => (-1)%Z
  end.
Definition ordered_axis (edges : list R) : binner R :=
  mk_binner (length edges - 1) (fun x => find_bin edges x 0).

(** An event: right ascension, declination, energy. *)
Record event := mk_event { e_ra : R; e_dec : R; e_energy : R }.

(** HistND::fillBin adds the default weight one. *)
Definition count_one (x : R) (_ : unit) : R := (x + 1)%R.

Section Events.
(** astro::SkyDir(ra, dec).project(proj). *)
Variable project : R -> R -> R * R.

(** CountsMap.cxx:431-456. *)
Definition binInput (h : hist R R) (evs : list event) : outcome (hist R R) :=
  mfold (fun h e =>
    fillBin count_one h [fst (project (e_ra e) (e_dec e)); snd (project (e_ra e) (e_dec e)); e_energy e] tt)
    evs h.

(** CountsMap.cxx:417-424, the direction given by its coordinates. *)
Definition withinBounds (h : hist R R) (ra dec energy : R) (border : Z) : outcome bool :=
  obind (binIndexD h [fst (project ra dec); snd (project ra dec); energy] border) (fun i =>
  Ok (0 <=? i)%Z).

(** HealpixBinner::computeIndex of two coordinates. *)
Variable pix_index : R -> R -> Z.

(** CountsMapHealpix.cxx:163-181: the numbers of the bins, as doubles, are
    given to HistND::fillBin, which looks for the bins of the values it is
    given. *)
Definition binInput_hpx (h : hist R R) (evs : list event) : outcome (hist R R) :=
  mfold (fun h e =>
    obind (vec_get (h_binners h) 1) (fun eb =>
    fillBin count_one h [IZR (pix_index (e_ra e) (e_dec e)); IZR (cindex eb (e_energy e))] tt))
    evs h.

(** CountsMapHealpix.cxx:183-196. *)
Definition withinBounds_hpx (h : hist R R) (ra dec energy : R) (border : Z) : outcome bool :=
  obind (vec_get (h_binners h) 1) (fun eb =>
  obind (binIndexD h [IZR (pix_index ra dec); IZR (cindex eb energy)] border) (fun i =>
  Ok (0 <=? i)%Z)).
End Events.

(** ** Maps of a range of energies *)

(** CountsMapBase.cxx:313-326. *)
Definition subrange (h : hist R R) (energies : list R) (idim first last : nat)
    : outcome (hist R R * list R) :=
  obind (sumRange 0%R Rplus h idim first last) (fun h' =>
  obind (vec_get energies first) (fun e1 =>
  obind (vec_get energies last) (fun e2 => Ok (h', [e1; e2])))).

(** ** HEALPix maps *)

(** The state that the constructors treat differently; [hm_radius = None] is a
    member that was never written. *)
Record hmap := mk_hmap {
  hm_radius : option R;
  hm_pixels : list nat;          (* m_hpx_binner->pixelIndices() *)
  hm_energies : list R;
  hm_data : list R }.

(** CountsMapHealpix.h:88; reading a member that was never written is
    undefined. *)
Definition allSky (m : hmap) : outcome bool :=
  match hm_radius m with None => UB | Some r => Ok (Rleb 180 r) end.

(** CountsMapHealpix.cxx:342-346; the map of the binner holds, for each pixel of
    the list, its place (external). *)
Fixpoint place_of (pix : list nat) (glo : Z) (k : Z) : Z :=
  match pix with
  | [] => (-1)%Z
  | p :: ps => if (Z.of_nat p =? glo)%Z then k else place_of ps glo (k + 1)
  end.
Definition globalToLocalIndex (m : hmap) (glo : Z) : outcome Z :=
  obind (allSky m) (fun all => Ok (if all then glo else place_of (hm_pixels m) glo 0)).

(** CountsMapHealpix.cxx:348-352. *)
Definition localToGlobalIndex (m : hmap) (loc : Z) : outcome Z :=
  obind (allSky m) (fun all =>
  if all then Ok loc
  else if ((loc <? 0) || (Z.of_nat (length (hm_pixels m)) <=? loc))%Z then Ok (-1)%Z
  else obind (vec_get (hm_pixels m) (Z.to_nat loc)) (fun p => Ok (Z.of_nat p))).

(** CountsMapHealpix.cxx:67-74: m_mapRadius is not in the list. *)
Definition copy_hpx (m : hmap) : hmap := mk_hmap None (hm_pixels m) (hm_energies m) (hm_data m).

(** CountsMapHealpix.cxx:86-100: the loop of 95-97, then convertToIntegral,
    whose output is passed by value (HealpixProjMap.cxx:96-109) and is lost. *)
Definition from_proj_hpx (m : hmap) : outcome hmap :=
  if length (hm_energies m) =? 0 then Throw else
  obind (mfold (fun ws k =>
    obind (vec_get (hm_energies m) (S k)) (fun b =>
    obind (vec_get (hm_energies m) k) (fun a => vec_set ws k (b - a)%R)))
    (seq 0 (length (hm_energies m))) (repeat 0%R (length (hm_energies m) - 1))) (fun _ =>
  Ok (copy_hpx m)).

(** Deleting an object: [alive] says whether it still exists. *)
Definition delete_obj (alive : bool) : outcome bool := if alive then Ok false else UB.

(** CountsMapHealpix.cxx:215-234: the table is deleted at 225 and at 233; what
    is written in between does not touch the pointer. *)
Definition writeAsWeightsMap_hpx (m : hmap) : outcome (list R * list R) :=
  let alive := true in
  obind (delete_obj alive) (fun alive =>
  obind (fillEnergyBinGeomCenters [] (hm_energies m)) (fun centers =>
  obind (delete_obj alive) (fun _ => Ok (hm_data m, centers)))).
(** CountsMapHealpix.cxx:198-213: the table is deleted once. *)
Definition writeOutput_hpx (m : hmap) : outcome (list R) :=
  let alive := true in
  obind (delete_obj alive) (fun _ => Ok (hm_data m)).

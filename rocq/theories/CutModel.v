(** Model of the checks of the data selections, src/AppHelpers.cxx 88-112, 371-407, 430-595, 603-913, 941-1016.

    A file has a list of cuts (dataSubselector::Cuts, external): ranges of a column, bit masks, versions and good time
    intervals.  When two cuts or two lists of cuts are equal is external too ([cut_eq], [cuts_eq], [cuts_eq_nogti]). *)
From Coq Require Import Reals ZArith NArith List Bool Arith Ascii String Lia.
From Verif Require Import Base AccumModel.
Import ListNotations.
Local Open Scope string_scope.
Local Open Scope list_scope.
Local Open Scope nat_scope.

(** Ranges are closed, [RangeMax] has an upper end only. *)
Inductive cut := Range (col : string) (lo hi : R) | RangeMax (col : string) (hi : R) | BitMask (col : string) (mask : N) | Gti (ivs : list (R * R)) | Version (col v : string).
Definition is_gti (c : cut) : bool := match c with Gti _ => true | _ => false end.

(** ** Time cuts *)
Section Checks.
Variable cut_eq : cut -> cut -> bool.
Variables cuts_eq cuts_eq_nogti : list cut -> list cut -> bool.

(** AppHelpers.cxx 843-848: the differences of the intervals, as long as both have one. *)
Fixpoint gti_diffs (a b : list (R * R)) (s : R * R) : R * R :=
  match a, b with
  | (a1, a2) :: a', (b1, b2) :: b' => gti_diffs a' b' ((fst s + Rabs (a1 - b1))%R, (snd s + Rabs (a2 - b2))%R)
  | _, _ => s
  end.
Definition ivs_of (c : cut) : list (R * R) := match c with Gti l => l | _ => [] end.
(** AppHelpers.cxx 815-855; [None]: the differences are not set. *)
Definition compare_gtis (cuts1 cuts2 : list cut) : bool * option (R * R) :=
  let t1 := filter is_gti cuts1 in
  let t2 := filter is_gti cuts2 in
  if length t1 =? length t2 then
    let r := fold_left (fun s p => (fst s && cut_eq (fst p) (snd p), if cut_eq (fst p) (snd p) then snd s else gti_diffs (ivs_of (fst p)) (ivs_of (snd p)) (snd s))) (combine t1 t2) (true, (0%R, 0%R)) in
    (fst r, Some (snd r))
  else (false, None).
(** AppHelpers.cxx 732-769, 771-813, of the cuts of the files; the result says what is written as a warning.  Writing
    differences that are not set is undefined. *)
Definition checkTimeCuts (warningOnly : bool) (cuts1 cuts2 : list cut) : outcome (option (R * R)) :=
  match compare_gtis cuts1 cuts2 with
  | (true, _) => Ok None
  | (false, None) => UB
  | (false, Some d) => if warningOnly then Ok (Some d) else Throw
  end.

(** ** All cuts *)
(** AppHelpers.cxx 603-655, 657-713, 715-730 without relyOnStreams; the result says if there is a warning. *)
Definition checkCuts (compareGtis warningOnly : bool) (cuts1 cuts2 : list cut) : outcome bool :=
  if negb (cuts_eq_nogti cuts1 cuts2) then Throw
  else if compareGtis && negb (cuts_eq cuts1 cuts2) then (if warningOnly then Ok true else Throw)
  else Ok false.
(** likelihood.cxx 245-249, TsMap.cxx 169-175, gtcntsmap.cxx 92-97, gtfindsrc.cxx 119-123: the second to the last file
    against the first one. *)
Definition checkFiles (files : list (list cut)) : outcome (list bool) :=
  match files with
  | [] => Ok []
  | f :: l => mfold (fun w g => obind (checkCuts false true f g) (fun b => Ok (w ++ [b]))) l []
  end.

(** ** Exposure maps of unbinned analysis *)
(** AppHelpers.cxx 89-102. *)
Definition getRangeBounds (cuts : list (R * R)) : outcome (R * R) :=
  match cuts with
  | [] => Throw
  | c :: _ => Ok (fold_left (fun b c => (if Rltb (fst b) (fst c) then fst c else fst b, if Rltb (snd c) (snd b) then snd c else snd b)) cuts c)
  end.
Definition is_energy (c : cut) : bool := match c with Range col _ _ => String.eqb col "ENERGY" | RangeMax col _ => String.eqb col "ENERGY" | _ => false end.
Definition is_irf_version (c : cut) : bool := match c with Version col _ => String.eqb col "IRF_VERSION" | _ => false end.
(** The ranges of closed cuts of ENERGY; those without lower end are not modelled (UB). *)
Definition energy_ranges (cuts : list cut) : outcome (list (R * R)) :=
  mfold (fun l c => match c with Range _ lo hi => Ok (l ++ [(lo, hi)]) | _ => UB end) (filter is_energy cuts) [].
(** AppHelpers.cxx 857-895. *)
Definition checkExpMapCuts (ev map : list cut) : outcome unit :=
  let others := filter (fun c => negb (is_energy c) && negb (is_irf_version c)) in
  obind (energy_ranges ev) (fun er => obind (energy_ranges map) (fun mr =>
  if negb (cuts_eq (others ev) (others map)) then Throw else
  obind (getRangeBounds er) (fun e => obind (getRangeBounds mr) (fun m =>
  if Rltb (fst e) (fst m) || Rltb (snd m) (snd e) then Throw else Ok tt)))).
End Checks.

(** ** Event types *)
(** AppHelpers.cxx 570-587, default 3 (AppHelpers.h:220). *)
Definition evtype_mask (cuts : list cut) (default : N) : N :=
  fold_left (fun m c => match c with BitMask col k => if String.eqb col "EVENT_TYPE" then k else m | _ => m end) cuts default.
Definition getSelectedEvtTypes (cuts : list cut) (default : N) : list nat :=
  filter (fun j => N.testbit (evtype_mask cuts default) (N.of_nat j)) (seq 0 32).

(** AppHelpers.cxx 371-407, of the cuts of the file; integer ends of the ranges of EVENT_CLASS ([inr]: only an upper end). *)
Definition respcombos : list string := ["DC2"; "DC2FA"; "DC2BA"; "DC2FB"; "DC2BB"; "DC2_A"].
Definition responseFuncs (classes : list (Z + Z)) (respBase : string) : outcome string :=
  if negb (String.eqb respBase "DC2") then Ok respBase else
  match classes with
  | [] => Ok respBase
  | inr hi :: _ => if Z.eqb hi 1 then Ok "DC2_A" else UB
  | inl lo :: _ => if Z.ltb (lo + 1) 0 then UB else vec_get respcombos (Z.to_nat (lo + 1))
  end.

(** ** Response functions *)
(** The parameters of a tool ([None]: it has no such parameter). *)
Record pars := mk_pars { p_irfs : string; p_evtype : option N; p_expmap : option string; p_evfile : option string; p_bexpmap : option string; p_cmap : option string; p_srcmaps : option string }.
Definition need {A} (o : option A) : outcome A := match o with Some a => Ok a | None => Throw end.
Definition has_mask (col : string) (cuts : list cut) : bool := existsb (fun c => match c with BitMask k _ => String.eqb k col | _ => false end) cuts.
Definition has_colon (s : string) : bool := existsb (fun c => Ascii.eqb c ":"%char) (list_ascii_of_string s).
(** AppHelpers.cxx 440-471. *)
Definition cuts_file (p : pars) (unbinned : bool) : outcome string :=
  if unbinned then match p_expmap p with Some f => if String.eqb f "none" then need (p_evfile p) else Ok f | None => need (p_evfile p) end
  else match p_bexpmap p with Some f => Ok f | None => need (p_cmap p) end.
(** AppHelpers.cxx 430-547: the cuts that select the response functions.  [read]: the cuts of a file, [irf_cuts]: those of a
    name (external). *)
Definition response_cuts (read : string -> outcome (list cut)) (irf_cuts : string -> list cut) (p : pars) (unbinned : bool) : outcome (list cut) :=
  obind (cuts_file p unbinned) (fun file =>
  if String.eqb (p_irfs p) "CALDB" then
    obind (read file) (fun c =>
    obind (if has_mask "EVENT_CLASS" c then Ok c else obind (match p_cmap p with Some f => Ok f | None => need (p_srcmaps p) end) read) (fun c =>
    if has_mask "EVENT_TYPE" c then Ok c else match p_evtype p with Some m => Ok (c ++ [BitMask "EVENT_TYPE" m]) | None => Ok c end))
  else if has_colon (p_irfs p) then Throw
  else Ok (irf_cuts (p_irfs p) ++ match p_evtype p with Some m => [BitMask "EVENT_TYPE" m] | None => [] end)).

(** ** Exposure maps of binned analysis *)
(** AppHelpers.cxx 968-995. *)
Definition border (n1 n2 : nat) : list (nat * nat) :=
  map (fun i => (i, 1)) (seq 1 n1) ++ map (fun j => (n1, j)) (seq 1 n2) ++ map (fun i => (i, n2)) (rev (seq 1 n1)) ++ map (fun j => (1, j)) (rev (seq 1 n2)).
(** AppHelpers.cxx 961-1009: [dir]: the direction of a pixel, [None] outside of the projection, an exception; [covered]:
    whether the exposure map has it. *)
Definition checkExposureMap_wcs {D} (dir : nat -> nat -> option D) (covered : D -> bool) (n1 n2 : nat) : outcome unit :=
  mfold (fun _ p => match dir (fst p) (snd p) with None => Throw | Some d => if covered d then Ok tt else Throw end) (border n1 n2) tt.
(** AppHelpers.cxx 951-959. *)
Definition checkExposureMap_healpix (allSky : bool) : outcome unit := if allSky then Ok tt else Throw.

(** Model of the fit scanner's cache of the source model: src/FitUtils.cxx
    1357-1531 (extraction of the model from a BinnedLikelihood) and
    src/FitScanner.cxx 956-1270, 1589-1613, 1777-1828 ([FitScanCache]).

    Simplifications.  Numbers are reals.  Source names are integers, ordered as the
    strings are.  A source is its name, its counts for a normalisation of one
    ([s_shape]), and the value and the free flag of its normalisation parameter: its
    counts are proportional to the normalisation (as the fit scanner assumes).  The
    likelihood is one BinnedLikelihood.  The cache is in unreduced mode (C10 and C44
    treat the reduction of the bins) and without likelihood weights; the data, the
    energy range and the priors are left out, and so is [m_initModel], used only for
    weights.  Pointers to templates are the templates: those of the sources in use do
    not change while they are in use, and the test source is taken out before its
    template is replaced. *)
From Verif Require Import Base AccumModel VecModel PoissonModel.
From Coq Require Import Reals.
Local Open Scope R_scope.

Record source := { s_name : Z; s_shape : list R; s_norm : R; s_free : bool }.
(** BinnedLikelihood::computeModelMap for one source, added to a zero vector
    (FitUtils.cxx:1418-1419, 1517-1518, 1274-1280). *)
Definition counts (s : source) : list R := map (fun x => s_norm s * x) (s_shape s).
(** multiplyByScalar, FitUtils.cxx:339-345. *)
Definition scaled (f : R) (l : list R) : list R := map (fun x => x * f) l.
(** SourceModel::getSource / source: 0 or an exception for an unknown name; both are
    dereferenced or thrown at once. *)
Definition get_source (srcs : list source) (n : Z) : option source := find (fun s => Z.eqb (s_name s) n) srcs.

(** The output vectors of FitUtils::extractModels. *)
Record extracted := { x_names : list Z; x_templates : list (list R); x_fixed : list R; x_test : list R; x_refs : list R }.
(** The body of the loop over the sources, FitUtils.cxx:1400-1458.  Line 1430 divides by
    the normalisation: zero gives a vector of NaN. *)
Definition extract_step (test : Z) (unitRef : bool) (x : extracted) (s : source) : outcome extracted :=
  if Z.eqb (s_name s) test then
    if Reqb (s_norm s) 0 then UB
    else obind (add_fixed (x_test x) (counts s) (1 / s_norm s)) (fun t =>
         Ok {| x_names := x_names x; x_templates := x_templates x; x_fixed := x_fixed x; x_test := t; x_refs := x_refs x |})
  else if s_free s then
    let rescale := (unitRef && Rltb 0 (s_norm s))%bool in
    let c := if rescale then scaled (1 / s_norm s) (counts s) else counts s in
    let r := if rescale then 1 else s_norm s in
    Ok {| x_names := x_names x ++ [s_name s]; x_templates := x_templates x ++ [c]; x_fixed := x_fixed x; x_test := x_test x;
          x_refs := x_refs x ++ [r] |}
  else obind (add_fixed (x_fixed x) (counts s) 1) (fun f =>
       Ok {| x_names := x_names x; x_templates := x_templates x; x_fixed := f; x_test := x_test x; x_refs := x_refs x |}).
(** FitUtils::extractModels, FitUtils.cxx:1357-1463: only the reference values are
    cleared, the other outputs keep what they hold (1375-1377). *)
Definition extractModels (nbins : nat) (test : Z) (unitRef : bool) (srcs : list source) (x : extracted) : outcome extracted :=
  mfold (extract_step test unitRef) srcs
    {| x_names := x_names x; x_templates := x_templates x; x_fixed := vec_resize (x_fixed x) nbins 0;
       x_test := vec_resize (x_test x) nbins 0; x_refs := [] |}.

(** FitUtils::extractFixedModel, FitUtils.cxx:1466-1531. *)
Definition extractFixedModel (nbins : nat) (test : Z) (latched : list Z) (srcs : list source) : outcome (list R) :=
  mfold (fun f s =>
    if Z.eqb (s_name s) test then Ok f
    else if existsb (Z.eqb (s_name s)) latched then Ok f
    else if s_free s then Ok f
    else add_fixed f (counts s) 1) srcs (repeat 0 nbins).

(** The cache (FitScanner.h, data members): template names, templates, sum of the fixed
    sources, test source template, reference values; and the current fit: templates, sum
    of what is fixed, initial and current parameters, gradient, covariance, index of the
    test source, free flags, indices and reference values of the free sources. *)
Record cache := {
  k_names : list Z; k_all : list (list R); k_fixed : list R; k_target : list R; k_refs : list R;
  k_models : list (list R); k_curFixed : list R; k_init : list R; k_pars : list R; k_grad : list R; k_cov : list (list R);
  k_test : option nat; k_free : list bool; k_indices : list nat; k_curRefs : list R }.

Definition empty_cache : cache :=
  {| k_names := []; k_all := []; k_fixed := []; k_target := []; k_refs := []; k_models := []; k_curFixed := []; k_init := [];
     k_pars := []; k_grad := []; k_cov := []; k_test := None; k_free := []; k_indices := []; k_curRefs := [] |}.

(** FitScanner.cxx:1104-1109. *)
Fixpoint free_indices (refs : list R) (i : nat) (free : list bool) : outcome (list nat * list R) :=
  match free with
  | [] => Ok ([], [])
  | f :: free' =>
      if f then obind (vec_get refs i) (fun r => obind (free_indices refs (S i) free') (fun p => Ok (i :: fst p, r :: snd p)))
      else free_indices refs (S i) free'
  end.
(** FitScanCache::refactorModel, FitScanner.cxx:1064-1116. *)
Definition refactorModel (k : cache) (free : list bool) (scales : list R) (include_test : bool) : outcome cache :=
  obind (refactorModels (k_all k) (k_fixed k) scales free (if include_test then Some (k_target k) else None)) (fun r =>
  match r with (models, fixed, pars) =>
    let nfree := length models in
    obind (free_indices (k_refs k) 0 free) (fun p =>
    Ok {| k_names := k_names k; k_all := k_all k; k_fixed := k_fixed k; k_target := k_target k; k_refs := k_refs k;
          k_models := models; k_curFixed := fixed; k_init := pars; k_pars := pars;
          k_grad := repeat 0 nfree; k_cov := repeat (repeat 0 nfree) nfree;
          k_test := if include_test then Some (nfree - 1)%nat else None;
          k_free := free; k_indices := fst p; k_curRefs := snd p |})
  end).
(** FitScanCache::setCache, FitScanner.cxx:1045-1062. *)
Definition setCache (k : cache) : outcome cache :=
  refactorModel k (repeat true (length (k_all k))) (repeat 1 (length (k_all k))) false.
(** FitScanCache::build_from_model, FitScanner.cxx:1777-1794. *)
Definition build_from_model (nbins : nat) (test : Z) (unitRef : bool) (srcs : list source) (k : cache) : outcome cache :=
  obind (extractModels nbins test unitRef srcs
           {| x_names := k_names k; x_templates := k_all k; x_fixed := k_fixed k; x_test := k_target k; x_refs := k_refs k |}) (fun x =>
  setCache {| k_names := x_names x; k_all := x_templates x; k_fixed := x_fixed x; k_target := x_test x; k_refs := x_refs x;
              k_models := k_models k; k_curFixed := k_curFixed k; k_init := k_init k; k_pars := k_pars k; k_grad := k_grad k;
              k_cov := k_cov k; k_test := k_test k; k_free := k_free k; k_indices := k_indices k; k_curRefs := k_curRefs k |}).
(** FitScanCache::get_status_and_scales, FitScanner.cxx:1815-1828.  [source(name)] throws
    for an unknown name; dividing by a zero reference value gives NaN or infinity. *)
Fixpoint get_status_and_scales (srcs : list source) (refs : list R) (i : nat) (names : list Z) : outcome (list bool * list R) :=
  match names with
  | [] => Ok ([], [])
  | n :: names' =>
      match get_source srcs n with
      | None => Throw
      | Some s =>
          obind (vec_get refs i) (fun r =>
          if Reqb r 0 then UB
          else obind (get_status_and_scales srcs refs (S i) names') (fun p => Ok (s_free s :: fst p, s_norm s / r :: snd p)))
      end
  end.
(** FitScanCache::refactor_from_model, FitScanner.cxx:1808-1813. *)
Definition refactor_from_model (srcs : list source) (k : cache) : outcome cache :=
  obind (get_status_and_scales srcs (k_refs k) 0 (k_names k)) (fun p =>
  refactorModel k (fst p) (snd p) (match k_test k with Some _ => true | None => false end)).
(** The constructor, FitScanner.cxx:919-960. *)
Definition construct (nbins : nat) (test : Z) (unitRef : bool) (srcs : list source) : outcome cache :=
  obind (build_from_model nbins test unitRef srcs empty_cache) (refactor_from_model srcs).

(** FitScanCache::getTemplateIndex, FitScanner.cxx:1579-1586. *)
Fixpoint getTemplateIndex (names : list Z) (n : Z) : option nat :=
  match names with [] => None | m :: names' => if Z.eqb m n then Some 0%nat else option_map S (getTemplateIndex names' n) end.
(** FitScanCache::update_template_for_source, FitScanner.cxx:1597-1613. *)
Definition update_template_for_source (srcs : list source) (k : cache) (n : Z) : outcome cache :=
  match getTemplateIndex (k_names k) n with
  | None => Throw
  | Some i =>
      match get_source srcs n with
      | None => Throw
      | Some s =>
          obind (vec_get (k_all k) i) (fun _ => obind (vec_get (k_refs k) i) (fun r =>
          let model := if Rltb 0 (s_norm s) then scaled (r / s_norm s) (counts s) else counts s in
          Ok {| k_names := k_names k; k_all := upd (k_all k) i model; k_fixed := k_fixed k; k_target := k_target k; k_refs := k_refs k;
                k_models := k_models k; k_curFixed := k_curFixed k; k_init := k_init k; k_pars := k_pars k; k_grad := k_grad k;
                k_cov := k_cov k; k_test := k_test k; k_free := k_free k; k_indices := k_indices k; k_curRefs := k_curRefs k |}))
      end
  end.
(** FitScanCache::update_fixed_from_model, FitScanner.cxx:1796-1799. *)
Definition update_fixed_from_model (nbins : nat) (test : Z) (srcs : list source) (k : cache) : outcome cache :=
  obind (extractFixedModel nbins test (k_names k) srcs) (fun f =>
  Ok {| k_names := k_names k; k_all := k_all k; k_fixed := f; k_target := k_target k; k_refs := k_refs k;
        k_models := k_models k; k_curFixed := k_curFixed k; k_init := k_init k; k_pars := k_pars k; k_grad := k_grad k;
        k_cov := k_cov k; k_test := k_test k; k_free := k_free k; k_indices := k_indices k; k_curRefs := k_curRefs k |}).

(** The actions, FitScanner.h:788-794. *)
Record action := { a_rebuild : bool; a_fixed : bool; a_free : bool; a_refactor : bool; a_prior : bool }.
(** FitScanCache::update_with_action, FitScanner.cxx:968-995 (without the priors and the
    snapshot). *)
Definition update_with_action (nbins : nat) (test : Z) (unitRef : bool) (srcs : list source) (a : action) (changed_latched : list Z)
    (k : cache) : outcome cache :=
  if a_rebuild a then build_from_model nbins test unitRef srcs k
  else
    obind (if a_fixed a then update_fixed_from_model nbins test srcs k else Ok k) (fun k =>
    obind (if a_free a then mfold (update_template_for_source srcs) changed_latched k else Ok k) (fun k =>
    obind (if (a_fixed a || a_free a)%bool then setCache k else Ok k) (fun k =>
    if (a_refactor a || a_prior a)%bool then refactor_from_model srcs k else Ok k))).

(** FitScanCache::getParScales, FitScanner.cxx:1151-1162. *)
Definition getParScales (k : cache) : outcome (list R) :=
  obind (mfold (fun (st : list R * nat) i =>
           obind (vec_get (k_pars k) (snd st)) (fun v => obind (vec_set (fst st) i v) (fun l => Ok (l, S (snd st)))))
         (k_indices k) (repeat 1 (length (k_all k)), 0%nat)) (fun st => Ok (fst st)).

(** Assignments to the members of the current fit. *)
Definition with_fit (k : cache) (models : list (list R)) (init pars grad : list R) (cov : list (list R)) (test : option nat) : cache :=
  {| k_names := k_names k; k_all := k_all k; k_fixed := k_fixed k; k_target := k_target k; k_refs := k_refs k;
     k_models := models; k_curFixed := k_curFixed k; k_init := init; k_pars := pars; k_grad := grad; k_cov := cov;
     k_test := test; k_free := k_free k; k_indices := k_indices k; k_curRefs := k_curRefs k |}.
(** CLHEP: [HepSymMatrix newCov(n); newCov.sub(1, m)] and [m.sub(1, n)]. *)
Definition cov_extend (m : list (list R)) (n : nat) : list (list R) :=
  map (fun row => row ++ repeat 0 (n - length row)) m ++ repeat (repeat 0 n) (n - length m).
Definition cov_sub (m : list (list R)) (n : nat) : list (list R) := map (firstn n) (firstn n m).
(** FitScanCache::addTestSourceToCurrent, FitScanner.cxx:1217-1244. *)
Definition addTestSourceToCurrent (initNorm : R) (k : cache) : cache :=
  match k_test k with
  | Some _ => k
  | None =>
      let pars := k_init k ++ [initNorm] in
      let grad := k_grad k ++ [0] in
      let n := length grad in
      with_fit k (k_models k ++ [k_target k]) pars pars grad (cov_extend (k_cov k) n) (Some (n - 1)%nat)
  end.
(** FitScanCache::removeTestSourceFromCurrent, FitScanner.cxx:1246-1268.  [sub] beyond the
    end is a CLHEP error. *)
Definition removeTestSourceFromCurrent (k : cache) : outcome cache :=
  match k_test k with
  | None => Ok k
  | Some _ =>
      match k_models k with
      | [] => UB
      | _ :: _ =>
          let models := removelast (k_models k) in
          let n := length models in
          if (Nat.leb n (length (k_init k)) && Nat.leb n (length (k_pars k)) && Nat.leb n (length (k_cov k)) && Nat.leb n (length (k_grad k)))%bool
          then Ok (with_fit k models (firstn n (k_init k)) (firstn n (k_pars k)) (firstn n (k_grad k)) (cov_sub (k_cov k) n) None)
          else Throw
      end
  end.
(** FitScanCache::setTestSource, FitScanner.cxx:1185-1196; [m] is what
    extractModelFromSource returns. *)
Definition setTestSource (m : list R) (k : cache) : outcome cache :=
  obind (removeTestSourceFromCurrent k) (fun k =>
  Ok (addTestSourceToCurrent 0
    {| k_names := k_names k; k_all := k_all k; k_fixed := k_fixed k; k_target := m; k_refs := k_refs k;
       k_models := k_models k; k_curFixed := k_curFixed k; k_init := k_init k; k_pars := k_pars k; k_grad := k_grad k; k_cov := k_cov k;
       k_test := k_test k; k_free := k_free k; k_indices := k_indices k; k_curRefs := k_curRefs k |})).
(** FitScanCache::fitCurrent, FitScanner.cxx:1334-1359: the fit overwrites parameters,
    gradient and covariance, and nothing else. *)
Definition fitCurrent (pars grad : list R) (cov : list (list R)) (k : cache) : cache :=
  with_fit k (k_models k) (k_init k) pars grad cov (k_test k).

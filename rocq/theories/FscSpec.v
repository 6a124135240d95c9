(** What the fit scanner's cache should hold: the same prediction as the likelihood's
    sources.  (Only the types and the operations are taken from the model.) *)
From Verif Require Import Base AccumProofs PoissonSpec FscModel.
From Coq Require Import Reals.
Local Open Scope R_scope.

(** Counts of source [s] in bin [b]. *)
Definition count_in (s : source) (b : nat) : R := s_norm s * nth b (s_shape s) 0.
(** Counts predicted by all sources but the test source. *)
Definition predicted (test : Z) (srcs : list source) (b : nat) : R :=
  Rsum (map (fun s => count_in s b) (filter (fun s => negb (Z.eqb (s_name s) test)) srcs)).
(** The sources that are neither the test source nor among [names]. *)
Definition others (test : Z) (names : list Z) (srcs : list source) : list source :=
  filter (fun s => (negb (Z.eqb (s_name s) test) && negb (existsb (Z.eqb (s_name s)) names))%bool) srcs.

(** Sources with different names, each with one number per bin. *)
Definition well_formed (nbins : nat) (srcs : list source) : Prop :=
  NoDup (map s_name srcs) /\ (forall s, In s srcs -> length (s_shape s) = nbins).
(** No normalisation by which the cache divides is zero. *)
Definition nonzero_norms (test : Z) (srcs : list source) : Prop :=
  forall s, In s srcs -> s_free s = true \/ s_name s = test -> s_norm s <> 0.

(** The sources went from [srcs] to [srcs'], and action [a] with the list [changed] takes
    notice of every change: nothing that needs a rebuild, [a_fixed] if the sources without
    a template changed, [a_free] with the name in [changed] if the shape of a template
    source changed, [a_refactor] if a normalisation or a free flag did or if another action
    is asked for. *)
Definition covered (nbins : nat) (test : Z) (names : list Z) (srcs srcs' : list source) (a : action) (changed : list Z) : Prop :=
  well_formed nbins srcs' /\ a_rebuild a = false /\
  (forall s, In s (others test names srcs') -> s_free s = false) /\
  (a_fixed a = false -> others test names srcs' = others test names srcs) /\
  incl changed names /\
  (forall s, In s srcs -> In (s_name s) names -> exists s', In s' srcs' /\ s_name s' = s_name s /\
     (a_free a = true /\ In (s_name s) changed \/ s_shape s' = s_shape s) /\
     (a_refactor a = false -> s_norm s' = s_norm s /\ s_free s' = s_free s)) /\
  (a_fixed a = true \/ a_free a = true -> a_refactor a = true).
(** The normalisations of the sources whose template is remade are positive. *)
Definition positive_norms (srcs : list source) (changed : list Z) : Prop :=
  forall s, In s srcs -> In (s_name s) changed -> 0 < s_norm s.

(** All states of the cache, with the sources it was last synchronised with: built from a
    model, updated when the model changes, fitted, and with the test source put in, taken
    out or replaced. *)
Inductive history (nbins : nat) (test : Z) (unitRef : bool) : list source -> cache -> Prop :=
| H_construct srcs k : well_formed nbins srcs -> construct nbins test unitRef srcs = Ok k -> history nbins test unitRef srcs k
| H_update srcs k srcs' a changed k' : history nbins test unitRef srcs k ->
    covered nbins test (k_names k) srcs srcs' a changed -> positive_norms srcs' changed ->
    update_with_action nbins test unitRef srcs' a changed k = Ok k' -> history nbins test unitRef srcs' k'
| H_fit srcs k pars grad cov : history nbins test unitRef srcs k ->
    length pars = length (k_models k) -> length grad = length (k_models k) -> length cov = length (k_models k) ->
    (forall row, In row cov -> length row = length (k_models k)) ->
    history nbins test unitRef srcs (fitCurrent pars grad cov k)
| H_add srcs k norm : history nbins test unitRef srcs k -> history nbins test unitRef srcs (addTestSourceToCurrent norm k)
| H_remove srcs k k' : history nbins test unitRef srcs k -> removeTestSourceFromCurrent k = Ok k' -> history nbins test unitRef srcs k'
| H_set srcs k m k' : history nbins test unitRef srcs k -> setTestSource m k = Ok k' -> history nbins test unitRef srcs k'.

(** What the fit has for one free source: the source, its template, the initial value of
    its parameter and its reference value. *)
Record row := { w_src : source; w_template : list R; w_par : R; w_ref : R }.

(** The current fit is about the sources [srcs]: [rows] are the free sources in the order
    of the fit, [tail] is the test source and its initial parameter, or nothing. *)
Record faithful (nbins : nat) (test : Z) (srcs : list source) (k : cache) (rows : list row) (tail : list (list R * R)) : Prop := {
  f_free : forall s, In s (map w_src rows) <-> In s srcs /\ s_name s <> test /\ s_free s = true;
  f_distinct : NoDup (map (fun w => s_name (w_src w)) rows);
  (** template times parameter is the source's counts; parameter times reference value its
      normalisation *)
  f_counts : forall w, In w rows -> length (w_template w) = nbins /\
    (forall b, w_par w * nth b (w_template w) 0 = count_in (w_src w) b) /\ w_par w * w_ref w = s_norm (w_src w);
  f_names : map (fun w => Some (s_name (w_src w))) rows = map (nth_error (k_names k)) (k_indices k);
  f_refs : map w_ref rows = k_curRefs k;
  f_test : k_test k = None /\ tail = [] \/ (exists x, k_test k = Some (length rows) /\ tail = [(k_target k, x)]);
  f_models : k_models k = map w_template rows ++ map fst tail;
  f_init : k_init k = map w_par rows ++ map snd tail;
  (** what is fixed plus the free sources at the initial parameters is the prediction *)
  f_total : forall b, nth b (k_curFixed k) 0 + Rsum (map (fun w => w_par w * nth b (w_template w) 0) rows) = predicted test srcs b;
  f_pars : length (k_pars k) = length (k_models k);
  f_grad : length (k_grad k) = length (k_models k);
  f_cov : length (k_cov k) = length (k_models k);
  f_cov_rows : forall r, In r (k_cov k) -> length r = length (k_models k) }.

(** What the predicted counts, fluxes and their derivatives should be. *)
From Coq Require Import Reals String List.
From Verif Require Import Base DerivSpec TrapSpec AccumProofs NpModel.
Import ListNotations.
Local Open Scope R_scope.

(** the source with other parameter values *)
Definition with_par (s : source) (p : list R) : source := {| s_spec := s_spec s; s_par := p; s_en := s_en s; s_ex := s_ex s |}.
(** The parameter of a name is the one at a position, and what derivByParam returns for it at the given energies is the derivative of the
    spectrum with respect to its value. *)
Definition true_derivative (s : source) (name : string) (i : nat) (es : list R) : Prop :=
  find_name name (sp_names (s_spec s)) = Some i /\
  exists v0, nth_error (s_par s) i = Some v0 /\
    forall e, In e es -> derivable_pt_lim (fun v => sp_val (s_spec s) (upd (s_par s) i v) e) v0 (sp_der (s_spec s) (s_par s) i e).
(** At the given energies the spectrum is a multiple of the value of the parameter. *)
Definition proportional (s : source) (i : nat) (es : list R) : Prop :=
  exists c : R -> R, forall v e, In e es -> sp_val (s_spec s) (upd (s_par s) i v) e = v * c e.
(** the value of a quantity as a function of the parameter values *)
Definition of_par (s : source) (f : source -> outcome R) (p : list R) : option R := to_option (f (with_par s p)).

(** The energies of the source: at least two, positive, and an exposure for each. *)
Definition well_formed (s : source) : Prop := (2 <= length (s_en s))%nat /\ Forall (Rlt 0) (s_en s) /\ length (s_ex s) = length (s_en s).
(** The trapezoidal rule over the logarithm of the energy. *)
Definition log_rule (es ys : list R) : R := trapezoids (map (fun ey => (ln (fst ey), fst ey * snd ey)) (combine es ys)).
(** pointwise product of the values of a function with an array *)
Definition products (f : R -> R) (es xs : list R) : list R := map (fun ex => f (fst ex) * snd ex) (combine es xs).

(** Equal steps in the logarithm of the energy, upwards. *)
Definition log_uniform (es : list R) : Prop :=
  exists a h, 0 < h /\ forall k, (k < length es)%nat -> nth k es 0 = exp (a + INR k * h).
(** [x] is on the broken line through the exposures [xs] at the logarithms of the energies [es]. *)
Definition on_line (es xs : list R) (e x : R) : Prop :=
  exists k e0 e1 x0 x1, nth_error es k = Some e0 /\ nth_error es (S k) = Some e1 /\ nth_error xs k = Some x0 /\ nth_error xs (S k) = Some x1 /\
    e0 <= e <= e1 /\ x = line (ln e0, x0) (ln e1, x1) (ln e).

(** The one-source likelihood: sum of the weighted logarithms of the densities above the cut-off, for the events whose weight is above the other. *)
Definition weight_of (o : one_source) (i : nat) : R := match o_weights o with None => 1 | Some w => nth i w 0 end.
(** every event has a weight; no density is negative and none is exactly at the cut-off *)
Definition events_regular (o : one_source) (s : source) : Prop :=
  o_edisp o = false /\ 0 <= o_epsf o /\
  (match o_weights o with None => True | Some w => (length (o_events o) <= length w)%nat end) /\
  forall ev, In ev (o_events o) -> let q := sp_val (s_spec s) (s_par s) (ev_energy ev) * ev_resp ev in 0 <= q /\ q <> o_epsf o.

Section Pixel.
Context {dir : Type} (sepn : dir -> dir -> R) (xresp : R -> nat -> R -> R) (d : dir) (omega : R) (types : list nat) (emin emax : R).
(** The factor of the spectrum of a source in the counts of the pixel per unit energy: only point sources within 90 degrees contribute. *)
Definition pixel_weight (m : msource (dir := dir)) (ty : nat) (e : R) : R :=
  match ms_dir m with
  | Some sd => if Rlt_dec (sepn sd d) 90 then xresp (sepn d sd) ty e else 0
  | None => 0
  end.
(** Counts of the pixel, by the rule over the energy and by the rule over its logarithm. *)
Definition linear_counts (model : list (msource (dir := dir))) : R :=
  Rsum (map (fun m => Rsum (map (fun ty => let f e := sp_val (s_spec (ms_src m)) (s_par (ms_src m)) e * pixel_weight m ty e in
    (f emin + f emax) / 2 * omega * (emax - emin)) types)) model).
Definition log_counts (model : list (msource (dir := dir))) : R :=
  Rsum (map (fun m => Rsum (map (fun ty => let f e := sp_val (s_spec (ms_src m)) (s_par (ms_src m)) e * pixel_weight m ty e in
    (f emin * emin + f emax * emax) / 2 * omega * ln (emax / emin)) types)) model).
End Pixel.
Definition ms_with {dir} (m : msource (dir := dir)) (p : list R) : msource := {| ms_dir := ms_dir m; ms_src := with_par (ms_src m) p; ms_free := ms_free m |}.
(** number of free parameters *)
Definition n_free {dir} (model : list (msource (dir := dir))) : nat := fold_right (fun m n => (length (ms_free m) + n)%nat) 0%nat model.
(** Every free parameter is a parameter of the spectrum, and one called "Prefactor" has the value 0. *)
Definition plain_free {dir} (m : msource (dir := dir)) : Prop := forall n, In n (ms_free m) ->
  (exists i, find_name n (sp_names (s_spec (ms_src m))) = Some i) /\
  (n = "Prefactor"%string -> forall i, find_name n (sp_names (s_spec (ms_src m))) = Some i -> nth_error (s_par (ms_src m)) i = Some 0).

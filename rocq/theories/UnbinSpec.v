(** What the unbinned likelihood is supposed to be, without any cache: for C25, C26, C29, C50, C51. *)
From Coq Require Import Reals.
From Verif Require Import Base SMap AccumModel AccumProofs UnbinModel.

(** ** Events (C25) *)
Inductive eop := EUpdate (n : Z) (c : R) | EDelete (n : Z) | EReset.
(** The contributions registered by a history, in the order of the names. *)
Definition registered (l : list eop) : SMap.smap R :=
  fold_left (fun m o => match o with EUpdate n c => minsert n c m | EDelete n => merase n m | EReset => [] end) l [].
(** The latest contribution of a source, read off the history from its end. *)
Fixpoint latest (n : Z) (rev_history : list eop) : option R :=
  match rev_history with
  | [] => None
  | EUpdate n' c :: h => if (n =? n')%Z then Some c else latest n h
  | EDelete n' :: h => if (n =? n')%Z then None else latest n h
  | EReset :: _ => None
  end.

(** ** The cache of responses (C29) *)
Inductive cop (T : Type) := CRead (i : nat) (n : Z) | CWrite (i : nat) (n : Z) (x : T) | CDelete (n : Z) | CClear (k : nat).
Arguments CRead {T}. Arguments CWrite {T}. Arguments CDelete {T}. Arguments CClear {T}.
(** What was last stored for (i, n), read off the history from its end; [k] is the number of
    events at the time. *)
Fixpoint events_now {T} (k0 : nat) (rev_history : list (cop T)) : nat :=
  match rev_history with [] => k0 | CClear k :: _ => k | _ :: h => events_now k0 h end.
Fixpoint stored {T} (dflt : T) (k0 : nat) (i : nat) (n : Z) (rev_history : list (cop T)) : T :=
  match rev_history with
  | [] => dflt
  | CWrite i' n' x :: h => if (i =? i') && (n =? n')%Z && (i' <? events_now k0 h) then x else stored dflt k0 i n h
  | CDelete n' :: h => if (n =? n')%Z then dflt else stored dflt k0 i n h
  | CClear _ :: _ => dflt
  | CRead _ _ :: h => stored dflt k0 i n h
  end.

(** ** The likelihood *)
(** Density of a source at an event. *)
Definition density (ph : uphys) (n : Z) (s : usrc) (j : nat) : R :=
  (up_spec ph (us_fn s) (us_par s) j * (if us_diffuse s then up_dresp ph n j else up_resp ph (us_img s) j) * up_eff ph j)%R.
Definition total_density (ph : uphys) (srcs : SMap.smap usrc) (j : nat) : R := Rsum (map (fun ns => density ph (fst ns) (snd ns) j) srcs).
(** The logarithm, with what is used for it when it does not exist. *)
Definition log_density (ph : uphys) (srcs : SMap.smap usrc) (j : nat) : R :=
  let d := total_density ph srcs j in
  if Rltb 0 d then ln d else if length srcs =? 1 then 0%R else (- IZR (10 ^ 30))%R.
Definition in_bounds (ph : uphys) (eb : option (R * R)) (j : nat) : bool :=
  match eb with Some (a, b) => negb (Rltb (up_en ph j) a || Rltb b (up_en ph j)) | None => true end.
(** Nothing of the data is selected. *)
Definition excluded (g : ucfg) (eb : option (R * R)) : bool :=
  match eb with Some (a, b) => Rleb (uc_hi g) a || Rleb b (uc_lo g) | None => false end.
Definition data_part (ph : uphys) (g : ucfg) (srcs : SMap.smap usrc) (eb : option (R * R)) : R :=
  Rsum (map (log_density ph srcs) (filter (in_bounds ph eb) (seq 0 (uc_nev g)))).
(** The log-likelihood of a set of sources, computed from nothing. *)
Definition fresh_value (ph : uphys) (g : ucfg) (srcs : SMap.smap usrc) (eb : option (R * R)) : R :=
  if excluded g eb then 0%R
  else (data_part ph g srcs eb - Rsum (map (fun ns => up_npred ph (us_fn (snd ns)) (us_img (snd ns)) eb (us_par (snd ns))) srcs))%R.

(** The state a client has to keep in mind: each source as it is now, and the parameters and energies for
    which its predicted counts were last refreshed; the parameter values the likelihood object
    knows; the bounds; the best value and its parameters. *)
Record ssrc := mk_ss { ss_now : usrc; ss_at : list R * option (R * R) }.
Record sst := mk_sst { p_src : SMap.smap ssrc; p_pv : list R; p_eb : option (R * R); p_best : R; p_bestpar : list R }.
Definition onto (f : Z -> ssrc -> ssrc) (m : SMap.smap ssrc) : SMap.smap ssrc := map (fun nx => (fst nx, f (fst nx) (snd nx))) m.
Definition now (m : SMap.smap ssrc) : SMap.smap usrc := map (fun nx => (fst nx, ss_now (snd nx))) m.
Definition all_values (m : SMap.smap usrc) : list R := flat_map (fun ns => us_par (snd ns)) m.
Definition refresh (x : ssrc) : ssrc := mk_ss (ss_now x) (us_par (ss_now x), us_grid (ss_now x)).
Definition with_now (f : usrc -> usrc) (x : ssrc) : ssrc := mk_ss (f (ss_now x)) (ss_at x).
Definition with_psrc (S : sst) (m : SMap.smap ssrc) : sst := mk_sst m (p_pv S) (p_eb S) (p_best S) (p_bestpar S).
Definition with_best (S : sst) (v : R) (p : list R) : sst := mk_sst (p_src S) (p_pv S) (p_eb S) v p.
(** syncParams refreshes the sources with a free parameter (all of them, when predicted counts are not kept). *)
Definition sync (S : sst) : sst :=
  let m := onto (fun _ x => if us_isfree (ss_now x) then refresh x else x) (p_src S) in
  mk_sst m (all_values (now m)) (p_eb S) (p_best S) (p_bestpar S).
Definition spec_value (ph : uphys) (g : ucfg) (S : sst) : R :=
  if excluded g (p_eb S) then 0%R
  else (data_part ph g (now (p_src S)) (p_eb S) -
        Rsum (map (fun nx => let s := ss_now (snd nx) in
                   if uc_new g then up_npred ph (us_fn s) (us_img s) (snd (ss_at (snd nx))) (fst (ss_at (snd nx)))
                   else up_npred ph (us_fn s) (us_img s) (us_grid s) (us_par s)) (p_src S)))%R.
Fixpoint give (m : list (Z * ssrc)) (vals : list R) : list (Z * ssrc) :=
  match m with
  | [] => []
  | (n, x) :: m' => let k := length (us_par (ss_now x)) in
      (n, with_now (fun s => set_par s (firstn k vals) (us_fr s)) x) :: give m' (skipn k vals)
  end.
Definition spec_step (ph : uphys) (g : ucfg) (S : sst) (o : uop) : sst :=
  match o with
  | UAdd n s => match mfind n (p_src S) with
                | Some _ => S
                | None => with_best (sync (with_psrc S (minsert n (mk_ss s (us_par s, us_grid s)) (p_src S)))) worst (p_bestpar S)
                end
  | UDelete n => let S := with_best S worst (p_bestpar S) in
                 match mfind n (p_src S) with None => S | Some _ => sync (with_psrc S (merase n (p_src S))) end
  | UPoke n p fr => match mfind n (p_src S) with None => S | Some x => with_psrc S (minsert n (with_now (fun s => set_par s p fr) x) (p_src S)) end
  | USetParam n p fr => match mfind n (p_src S) with None => S | Some x => sync (with_psrc S (minsert n (with_now (fun s => set_par s p fr) x) (p_src S))) end
  | USetFreeValues f => sync (with_psrc S (onto (fun n => with_now (set_free_values (f n))) (p_src S)))
  | USync => sync S
  | USyncSrc n => mk_sst (match mfind n (p_src S) with None => p_src S | Some x => minsert n (refresh x) (p_src S) end)
                    (all_values (now (p_src S))) (p_eb S) (p_best S) (p_bestpar S)
  | USetEb a b => mk_sst (onto (fun _ x => refresh (with_now (fun s => set_grid s (Some (a, b))) x)) (p_src S)) (p_pv S) (Some (a, b)) (p_best S) (p_bestpar S)
  | UUnsetEb => mk_sst (onto (fun _ x => refresh x) (p_src S)) (p_pv S) None (p_best S) (p_bestpar S)
  | UMove n i => match mfind n (p_src S) with None => S | Some x => with_psrc S (minsert n (with_now (fun s => set_img s i) x) (p_src S)) end
  | UValue => if negb (excluded g (p_eb S)) && Rltb (p_best S) (spec_value ph g S) then with_best S (spec_value ph g S) (p_pv S) else S
  | UGradient => S
  | URestore => if length (p_bestpar S) =? length (p_pv S) then sync (with_psrc S (give (p_src S) (p_bestpar S))) else S
  | USaveCurrent => let S := sync S in
                    if Rltb worst (spec_value ph g S) then with_best S (spec_value ph g S) (p_pv S) else with_best S worst (p_bestpar S)
  end.
Definition spec_init : sst := mk_sst [] [] None worst [].
Definition spec_run (ph : uphys) (g : ucfg) (l : list uop) : sst := fold_left (spec_step ph g) l spec_init.

(** Ordinary calls: every parameter has its flag, the number of parameters of a source does not
    change, and sources are not moved. *)
Definition uordinary (npar : Z -> nat) (o : uop) : Prop :=
  match o with
  | UAdd n s => length (us_par s) = npar n /\ length (us_fr s) = npar n
  | UPoke n p fr | USetParam n p fr => length p = npar n /\ length fr = npar n
  | UMove _ _ => False
  | _ => True
  end.

(** What a careful client does: after changing a source they synchronise that source. *)
Inductive action := AAdd (n : Z) (s : usrc) | ADelete (n : Z) | AChange (n : Z) (p : list R) (fr : list bool)
  | AFreeValues (f : Z -> nat -> R -> R) | ASync | AValue | AGradient.
Definition calls (a : action) : list uop :=
  match a with
  | AAdd n s => [UAdd n s] | ADelete n => [UDelete n] | AChange n p fr => [USetParam n p fr; USyncSrc n]
  | AFreeValues f => [USetFreeValues f] | ASync => [USync] | AValue => [UValue] | AGradient => [UGradient]
  end.
Definition action_ok (npar : Z -> nat) (a : action) : Prop :=
  match a with
  | AAdd n s => length (us_par s) = npar n /\ length (us_fr s) = npar n /\ us_grid s = None
  | AChange n p fr => length p = npar n /\ length fr = npar n
  | _ => True
  end.
(** The sources after the calls, by what each is documented to do. *)
Definition act (m : SMap.smap usrc) (a : action) : SMap.smap usrc :=
  match a with
  | AAdd n s => match mfind n m with Some _ => m | None => minsert n s m end
  | ADelete n => merase n m
  | AChange n p fr => match mfind n m with Some s => minsert n (set_par s p fr) m | None => m end
  | AFreeValues f => map (fun ns => (fst ns, set_free_values (f (fst ns)) (snd ns))) m
  | _ => m
  end.
Definition sources_of (l : list action) : SMap.smap usrc := fold_left act l [].

(** ** The best fit (C50) *)
(** The evaluations made by a series of actions: the log-likelihood, and the values of all parameters at the time. *)
Fixpoint seen (ph : uphys) (g : ucfg) (m : SMap.smap usrc) (l : list action) : list (R * list R) :=
  match l with
  | [] => []
  | AValue :: l' => (fresh_value ph g m None, all_values m) :: seen ph g m l'
  | a :: l' => seen ph g (act m a) l'
  end.
(** Actions that change parameters only; those that change only free ones. *)
Definition same_sources (a : action) : Prop := match a with AAdd _ _ | ADelete _ => False | _ => True end.
Definition free_only (a : action) : Prop := match a with AAdd _ _ | ADelete _ | AChange _ _ _ => False | _ => True end.
(** The action starts a new record of evaluations: it adds a new source or removes one. *)
Definition starts_record (m : SMap.smap usrc) (a : action) : Prop := match a with AAdd n _ => mfind n m = None | ADelete _ => True | _ => False end.

(** ** The gradient (C51) *)
(** The derivatives the sources give are those of their spectra and predicted counts, and a
    spectrum is proportional to its parameter Prefactor. *)
Record smooth (ph : uphys) : Prop := {
  sm_spec : forall f p i j, i < length p -> derivable_pt_lim (fun x => up_spec ph f (upd p i x) j) (nth i p 0%R) (up_dspec ph f p i j);
  sm_npred : forall f im gr p i, i < length p -> derivable_pt_lim (fun x => up_npred ph f im gr (upd p i x)) (nth i p 0%R) (up_dnpred ph f im gr p i);
  sm_pref : forall f k p j, up_pref ph f = Some k -> up_spec ph f p j = (nth k p 0 * up_dspec ph f p k j)%R }.
(** The sources with the i-th parameter of [n] set to [x]. *)
Definition with_param (m : SMap.smap usrc) (n : Z) (i : nat) (x : R) : SMap.smap usrc :=
  map (fun ns => if (fst ns =? n)%Z then (n, set_par (snd ns) (upd (us_par (snd ns)) i x) (us_fr (snd ns))) else ns) m.
(** The free parameters: sources in the order of their names, parameters in their own order. *)
Definition free_params (m : SMap.smap usrc) : list (Z * nat) :=
  flat_map (fun ns => map (fun i => (fst ns, i)) (filter (fun i => nth i (us_fr (snd ns)) false) (seq 0 (length (us_par (snd ns)))))) m.

(** Model of the unbinned likelihood: src/LogLike.cxx:27-306, 308-317, 343-424, the sums kept in
    each event (src/Event.cxx:467-487), the cache of responses (Likelihood/EventSourceCache.h),
    src/PointSource.cxx:76-116, 156-205, src/DiffuseSource.cxx:133-196, and the parts of
    src/SourceModel.cxx these call: 197-225, 321-352, 404-415, 670-677.

    Names are numbers.  Instrument response, spectra and predicted counts are parameters of the
    model ([uphys]); the sums over events use real numbers, for which the compensated sum of
    Accumulator.h:29-50 is the plain sum (C04).  Priors and printing are left out; the
    environment variables are part of the configuration. *)
From Coq Require Import Reals.
From Verif Require Import Base SMap AccumModel.

(** ** Event: src/Event.cxx:467-487 *)
Record uev := mk_uev { ev_sum : R; ev_flux : SMap.smap R }.
Definition ev_zero : uev := mk_uev 0%R [].
(** Event::updateModelSum (467-477); [c] is src.fluxDensity(...)*efficiency(). *)
Definition updateModelSum (e : uev) (n : Z) (c : R) : uev :=
  let s := match mfind n (ev_flux e) with Some old => (ev_sum e - old)%R | None => ev_sum e end in
  mk_uev (s + c)%R (minsert n c (ev_flux e)).
(** Event::deleteSource (479-482): operator[] makes a zero entry when there is none. *)
Definition ev_deleteSource (e : uev) (n : Z) : uev :=
  let f := match mfind n (ev_flux e) with Some _ => ev_flux e | None => minsert n 0%R (ev_flux e) end in
  mk_uev (ev_sum e - match mfind n f with Some x => x | None => 0%R end)%R (merase n f).
(** Event::resetModelSum (484-487). *)
Definition resetModelSum (e : uev) : uev := mk_uev 0%R [].

(** ** EventSourceCache.h *)
Section Cache.
Context {T : Type} (dflt : T).
Record esc := mk_esc { es_n : nat; es_map : SMap.smap (list T) }.
(** 48-52. *)
Definition clearAndResize (n : nat) : esc := mk_esc n [].
(** 54. *)
Definition esc_deleteSource (c : esc) (n : Z) : esc := mk_esc (es_n c) (merase n (es_map c)).
(** m_cache[srcname] and the resize of lines 60-61 and 70-71. *)
Definition esc_touch (c : esc) (n : Z) : esc * list T :=
  let v := match mfind n (es_map c) with Some v => v | None => [] end in
  let v := if length v =? es_n c then v else vec_resize v (es_n c) dflt in
  (mk_esc (es_n c) (minsert n v (es_map c)), v).
(** getCachedValue (58-66), read or written through the reference it returns. *)
Definition esc_read (c : esc) (i : nat) (n : Z) : esc * outcome T :=
  let (c, v) := esc_touch c n in (c, vec_at v i).
Definition esc_write (c : esc) (i : nat) (n : Z) (x : T) : esc * outcome unit :=
  let (c, v) := esc_touch c n in
  match vec_at v i with
  | Ok _ => (mk_esc (es_n c) (minsert n (upd v i x) (es_map c)), Ok tt)
  | Throw => (c, Throw)
  | UB => (c, UB)
  end.
(** 68-76. *)
Definition getCachedEventValues (c : esc) (n : Z) : esc * list T := esc_touch c n.
End Cache.

(** ** Sources *)
(** Form of the spectrum, position, spectral parameters, which of them are free, the energies its
    exposure was computed on (None: those of the region of interest), diffuse or point source. *)
Record usrc := mk_us { us_fn : Z; us_img : Z; us_par : list R; us_fr : list bool; us_grid : option (R * R); us_diffuse : bool }.
(** Spectrum at the energy of an event and its derivatives by the parameters, the response of
    a position to an event, the diffuse response stored in an event under a name, Source::Npred
    and NpredDeriv, efficiency and energy of an event, and which parameter has the name Prefactor. *)
Record uphys := mk_up {
  up_spec : Z -> list R -> nat -> R; up_dspec : Z -> list R -> nat -> nat -> R;
  up_resp : Z -> nat -> R; up_dresp : Z -> nat -> R;
  up_npred : Z -> Z -> option (R * R) -> list R -> R; up_dnpred : Z -> Z -> option (R * R) -> list R -> nat -> R;
  up_eff : nat -> R; up_en : nat -> R; up_pref : Z -> option nat }.
(** Number of events, energy range of the region of interest, m_useNewImp, LOGLIKE_CATCH_NEG_PROB. *)
Record ucfg := mk_ucfg { uc_nev : nat; uc_lo : R; uc_hi : R; uc_new : bool; uc_catch : bool }.

Definition us_isfree (s : usrc) : bool := existsb (fun b => b) (us_fr s).
Definition set_par (s : usrc) (p : list R) (fr : list bool) : usrc := mk_us (us_fn s) (us_img s) p fr (us_grid s) (us_diffuse s).
Definition set_grid (s : usrc) (gr : option (R * R)) : usrc := mk_us (us_fn s) (us_img s) (us_par s) (us_fr s) gr (us_diffuse s).
Definition set_img (s : usrc) (i : Z) : usrc := mk_us (us_fn s) i (us_par s) (us_fr s) (us_grid s) (us_diffuse s).

(** State of the likelihood: m_sources, names of m_freeSrcs, m_parameter (value, free),
    m_npredValues, m_respCache, the events, m_accumulator, the energy bounds in use,
    m_bestValueSoFar, m_bestFitParsSoFar. *)
Record ust := mk_ust { u_src : SMap.smap usrc; u_free : list Z; u_pv : list (R * bool); u_np : SMap.smap R; u_cache : @esc (bool * R);
  u_ev : list uev; u_acc : R; u_eb : option (R * R); u_best : R; u_bestpar : list R }.
Definition w_src st x := mk_ust x (u_free st) (u_pv st) (u_np st) (u_cache st) (u_ev st) (u_acc st) (u_eb st) (u_best st) (u_bestpar st).
Definition w_np st x := mk_ust (u_src st) (u_free st) (u_pv st) x (u_cache st) (u_ev st) (u_acc st) (u_eb st) (u_best st) (u_bestpar st).
Definition w_cache st x := mk_ust (u_src st) (u_free st) (u_pv st) (u_np st) x (u_ev st) (u_acc st) (u_eb st) (u_best st) (u_bestpar st).
Definition w_ev st x := mk_ust (u_src st) (u_free st) (u_pv st) (u_np st) (u_cache st) x (u_acc st) (u_eb st) (u_best st) (u_bestpar st).
Definition w_acc st x := mk_ust (u_src st) (u_free st) (u_pv st) (u_np st) (u_cache st) (u_ev st) x (u_eb st) (u_best st) (u_bestpar st).
Definition w_eb st x := mk_ust (u_src st) (u_free st) (u_pv st) (u_np st) (u_cache st) (u_ev st) (u_acc st) x (u_best st) (u_bestpar st).
Definition w_best st x p := mk_ust (u_src st) (u_free st) (u_pv st) (u_np st) (u_cache st) (u_ev st) (u_acc st) (u_eb st) x p.
Definition worst : R := (- IZR (10 ^ 38))%R.

(** What a call leaves behind, and how it ends. *)
Definition ures (A : Type) := (ust * outcome A)%type.
Definition ubind {A B} (r : ures A) (f : ust -> A -> ures B) : ures B :=
  match r with (st, Ok a) => f st a | (st, Throw) => (st, Throw) | (st, UB) => (st, UB) end.

Section Like.
Context (ph : uphys) (g : ucfg).

(** PointSource.cxx:76-116, DiffuseSource.cxx:133-156: value and the cache entry afterwards. *)
Definition fluxDensity (n : Z) (s : usrc) (j : nat) (c : bool * R) : R * (bool * R) :=
  if us_diffuse s then ((up_spec ph (us_fn s) (us_par s) j * up_dresp ph n j)%R, c)
  else if fst c then ((up_spec ph (us_fn s) (us_par s) j * snd c)%R, c)
  else let r := up_resp ph (us_img s) j in ((up_spec ph (us_fn s) (us_par s) j * r)%R, (true, r)).
(** PointSource.cxx:156-205, DiffuseSource.cxx:158-196: by the i-th parameter. *)
Definition fluxDensityDeriv (n : Z) (s : usrc) (j i : nat) (c : bool * R) : R * (bool * R) :=
  if (match up_pref ph (us_fn s) with Some k => i =? k | None => false end) && negb (Reqb (nth i (us_par s) 0%R) 0%R)
  then let (f, c) := fluxDensity n s j c in ((f / nth i (us_par s) 0)%R, c)
  else if us_diffuse s then ((up_dspec ph (us_fn s) (us_par s) i j * up_dresp ph n j)%R, c)
  else if fst c then ((snd c * up_dspec ph (us_fn s) (us_par s) i j)%R, c)
  else let r := up_resp ph (us_img s) j in ((r * up_dspec ph (us_fn s) (us_par s) i j)%R, (true, r)).
Definition npred_of (s : usrc) : R := up_npred ph (us_fn s) (us_img s) (us_grid s) (us_par s).

(** SourceModel.cxx:404-415, 670-677. *)
Definition flat_params (m : SMap.smap usrc) : list (R * bool) := flat_map (fun ns => combine (us_par (snd ns)) (us_fr (snd ns))) m.
Definition free_names (m : SMap.smap usrc) : list Z := map fst (filter (fun ns => us_isfree (snd ns)) m).
Definition base_sync (st : ust) : ust :=
  mk_ust (u_src st) (free_names (u_src st)) (flat_params (u_src st)) (u_np st) (u_cache st) (u_ev st) (u_acc st) (u_eb st) (u_best st) (u_bestpar st).
(** LogLike.cxx:343-351. *)
Definition npred_in (m : SMap.smap usrc) (n : Z) : R := match mfind n m with Some s => npred_of s | None => 0%R end.
Definition syncParams (st : ust) : ust :=
  let st := base_sync st in
  if uc_new g then w_np st (fold_left (fun np n => minsert n (npred_in (u_src st) n) np) (u_free st) (u_np st)) else st.
(** LogLike.cxx:392-398. *)
Definition update_npreds (st : ust) : ust := w_np st (fold_left (fun np ns => minsert (fst ns) (npred_of (snd ns)) np) (u_src st) (u_np st)).

(** Event::updateModelSum for event j, through the cache or without it. *)
Definition upd_event (st : ust) (j : nat) (n : Z) (c : R) : ust :=
  w_ev st (match nth_error (u_ev st) j with Some e => upd (u_ev st) j (updateModelSum e n c) | None => u_ev st end).
Definition cached_flux (st : ust) (j : nat) (n : Z) (s : usrc) : ures R :=
  match esc_read (false, 0%R) (u_cache st) j n with
  | (c, Ok e) =>
      let (f, e') := fluxDensity n s j e in
      match esc_write (false, 0%R) c j n e' with
      | (c, Ok _) => (w_cache st c, Ok f)
      | (c, Throw) => (w_cache st c, Throw)
      | (c, UB) => (w_cache st c, UB)
      end
  | (c, Throw) => (w_cache st c, Throw)
  | (c, UB) => (w_cache st c, UB)
  end.
Definition updateSum (st : ust) (j : nat) (n : Z) (s : usrc) : ures unit :=
  ubind (cached_flux st j n s) (fun st f => (upd_event st j n (f * up_eff ph j)%R, Ok tt)).

(** LogLike.cxx:112-162. *)
Fixpoint source_sum (st : ust) (j : nat) (l : list (Z * usrc)) (total : R) : ures R :=
  match l with
  | [] => (st, Ok total)
  | (n, s) :: l' =>
      ubind (if existsb (Z.eqb n) (u_free st) then updateSum st j n s else (st, Ok tt)) (fun st _ =>
      ubind (cached_flux st j n s) (fun st f => source_sum st j l' (total + f * up_eff ph j)%R))
  end.
Definition logSourceModel (st : ust) (j : nat) : ures R :=
  ubind (source_sum st j (u_src st) 0%R) (fun st v =>
  if Rltb 0 v then (st, Ok (ln v)) else
  if uc_catch g then (st, Throw) else
  if length (u_src st) =? 1 then (st, Ok 0%R) else (st, Ok (- IZR (10 ^ 30))%R)).

(** Lines 51-54: is the event selected? *)
Definition selected (st : ust) (j : nat) : bool :=
  match u_eb st with Some (a, b) => negb (Rltb (up_en ph j) a || Rltb b (up_en ph j)) | None => true end.
Fixpoint data_sum (st : ust) (js : list nat) : ures unit :=
  match js with
  | [] => (st, Ok tt)
  | j :: js' =>
      if selected st j then ubind (logSourceModel st j) (fun st a => data_sum (w_acc st (u_acc st + a)%R) js')
      else data_sum st js'
  end.
(** LogLike.cxx:404-412; getParamValues reads m_parameter. *)
Definition saveBestFit (st : ust) (v : R) : ust := if Rltb (u_best st) v then w_best st v (map fst (u_pv st)) else st.
(** LogLike.cxx:36-110. *)
Definition value (st : ust) : ures R :=
  if match u_eb st with Some (a, b) => Rleb (uc_hi g) a || Rleb b (uc_lo g) | None => false end then (st, Ok 0%R) else
  ubind (data_sum st (seq 0 (uc_nev g))) (fun st _ =>
  let st := w_acc st (fold_left (fun a x => (a - x)%R) (if uc_new g then map snd (u_np st) else map (fun ns => npred_of (snd ns)) (u_src st)) (u_acc st)) in
  let total := u_acc st in
  (saveBestFit (w_acc st 0%R) total, Ok total)).

(** LogLike.cxx:164-203: the derivatives of the log of the model at one event.  In double
    arithmetic exp(-1e30) is 0 and the division makes infinities or NaNs: what is said about the
    gradient is said for positive models. *)
Definition free_positions (s : usrc) : list nat := filter (fun i => nth i (us_fr s) false) (seq 0 (length (us_par s))).
Definition cached_deriv (st : ust) (j : nat) (n : Z) (s : usrc) (i : nat) : ures R :=
  match esc_read (false, 0%R) (u_cache st) j n with
  | (c, Ok e) =>
      let (f, e') := fluxDensityDeriv n s j i e in
      match esc_write (false, 0%R) c j n e' with
      | (c, Ok _) => (w_cache st c, Ok f)
      | (c, Throw) => (w_cache st c, Throw)
      | (c, UB) => (w_cache st c, UB)
      end
  | (c, Throw) => (w_cache st c, Throw)
  | (c, UB) => (w_cache st c, UB)
  end.
Fixpoint derivs_at (st : ust) (j : nat) (l : list (Z * usrc * nat)) (srcSum : R) (acc : list R) : ures (list R) :=
  match l with
  | [] => (st, Ok acc)
  | (n, s, i) :: l' => ubind (cached_deriv st j n s i) (fun st d => derivs_at st j l' srcSum (acc ++ [(d * up_eff ph j / srcSum)%R]))
  end.
Definition free_list (m : SMap.smap usrc) : list (Z * usrc * nat) := flat_map (fun ns => map (fun i => (fst ns, snd ns, i)) (free_positions (snd ns))) m.
Definition getLogSourceModelDerivs (st : ust) (j : nat) : ures (list R) :=
  ubind (logSourceModel st j) (fun st v => derivs_at st j (free_list (u_src st)) (exp v) []).
(** Lines 213-226: logSrcModelDerivs[i] += derivs[i]. *)
Fixpoint add_in (v d : list R) : outcome (list R) :=
  match d, v with
  | [], _ => Ok v
  | _ :: _, [] => UB
  | x :: d', y :: v' => obind (add_in v' d') (fun r => Ok ((y + x)%R :: r))
  end.
Fixpoint grad_sum (st : ust) (js : list nat) (v : list R) : ures (list R) :=
  match js with
  | [] => (st, Ok v)
  | j :: js' =>
      if selected st j then
        ubind (getLogSourceModelDerivs st j) (fun st d =>
        match add_in v d with Ok v' => grad_sum st js' v' | Throw => (st, Throw) | UB => (st, UB) end)
      else grad_sum st js' v
  end.
(** Npred.cxx:32-46 for one source. *)
Definition npred_derivs (s : usrc) : list R := map (up_dnpred ph (us_fn s) (us_img s) (us_grid s) (us_par s)) (free_positions s).
(** Lines 231-256. *)
Definition all_npred_derivs (st : ust) : list R :=
  if uc_new g then flat_map (fun n => match mfind n (u_src st) with Some s => npred_derivs s | None => [] end) (u_free st)
  else flat_map (fun ns => npred_derivs (snd ns)) (u_src st).
Definition num_free (st : ust) : nat := length (filter snd (u_pv st)).
(** LogLike.cxx:205-260. *)
Definition getFreeDerivs (st : ust) : ures (list R) :=
  ubind (grad_sum st (seq 0 (uc_nev g)) (repeat 0%R (num_free st))) (fun st v =>
  let d := all_npred_derivs st in
  if length v <? length d then (st, Throw) else (st, Ok (map (fun xy => (fst xy - snd xy)%R) (combine v d)))).

(** LogLike.cxx:274-306; SourceModel.cxx:197-206. *)
Definition fold_events (f : ust -> nat -> ures unit) (st : ust) : ures unit :=
  fold_left (fun r j => ubind r (fun st _ => f st j)) (seq 0 (uc_nev g)) (st, Ok tt).
Definition addSource (st : ust) (n : Z) (s : usrc) : ures unit :=
  match mfind n (u_src st) with
  | Some _ => (st, Throw)
  | None =>
      let st := syncParams (w_src st (minsert n s (u_src st))) in
      let useCachedResp := if uc_new g then us_isfree s else true in
      ubind (fold_events (fun st j =>
               if useCachedResp then updateSum st j n s
               else (upd_event st j n (fst (fluxDensity n s j (false, 0%R)) * up_eff ph j)%R, Ok tt)) st) (fun st _ =>
      (w_best (w_np st (minsert n (npred_of s) (u_np st))) worst (u_bestpar st), Ok tt))
  end.
(** LogLike.cxx:308-317; SourceModel.cxx:208-218. *)
Definition deleteSource (st : ust) (n : Z) : ures unit :=
  let st := w_ev st (map (fun e => ev_deleteSource e n) (u_ev st)) in
  let st := w_cache st (esc_deleteSource (u_cache st) n) in
  let st := w_best (w_np st (merase n (u_np st))) worst (u_bestpar st) in
  match mfind n (u_src st) with
  | None => (st, Throw)
  | Some _ => (syncParams (w_src st (merase n (u_src st))), Ok tt)
  end.
(** LogLike.cxx:353-366. *)
Definition syncSrcParams (st : ust) (n : Z) : ures unit :=
  let st := base_sync st in
  match mfind n (u_src st) with
  | None => (st, Ok tt)
  | Some s => fold_events (fun st j => updateSum st j n s) (w_np st (minsert n (npred_of s) (u_np st)))
  end.
(** LogLike.cxx:368-390. *)
Definition set_ebounds (st : ust) (a b : R) : ust :=
  update_npreds (w_src (w_eb st (Some (a, b))) (map (fun ns => (fst ns, set_grid (snd ns) (Some (a, b)))) (u_src st))).
Definition unset_ebounds (st : ust) : ust := update_npreds (w_eb st None).
(** SourceModel.cxx:336-343 with the check of optimizers::Function::setParamValues. *)
Fixpoint set_all (m : list (Z * usrc)) (vals : list R) : list (Z * usrc) :=
  match m with
  | [] => []
  | (n, s) :: m' => (n, set_par s (firstn (length (us_par s)) vals) (us_fr s)) :: set_all m' (skipn (length (us_par s)) vals)
  end.
Definition setParamValues (st : ust) (vals : list R) : ures unit :=
  if length vals =? length (u_pv st) then (syncParams (w_src st (set_all (u_src st) vals)), Ok tt) else (st, Throw).
(** LogLike.cxx:414-424. *)
Definition restoreBestFit (st : ust) : ures unit :=
  ubind (setParamValues st (u_bestpar st)) (fun st _ => (syncParams st, Ok tt)).
Definition saveCurrentFit (st : ust) : ures unit :=
  let st := syncParams st in
  ubind (value (w_best st worst (u_bestpar st))) (fun st v => (saveBestFit st v, Ok tt)).

Inductive uop :=
| UAdd (n : Z) (s : usrc)
| UDelete (n : Z)
(** Parameters of a source changed through getSource(), without telling the likelihood. *)
| UPoke (n : Z) (p : list R) (fr : list bool)
(** SourceModel::setParam (SourceModel.cxx:321-334). *)
| USetParam (n : Z) (p : list R) (fr : list bool)
(** setFreeParamValues (SourceModel.cxx:345-352): new values of the free parameters. *)
| USetFreeValues (f : Z -> nat -> R -> R)
| USync
| USyncSrc (n : Z)
| USetEb (a b : R)
| UUnsetEb
(** PointSource::setDir: the position changes. *)
| UMove (n : Z) (i : Z)
| UValue
| UGradient
| URestore
| USaveCurrent.

Definition set_free_values (f : nat -> R -> R) (s : usrc) : usrc :=
  set_par s (map (fun i => if nth i (us_fr s) false then f i (nth i (us_par s) 0%R) else nth i (us_par s) 0%R) (seq 0 (length (us_par s)))) (us_fr s).
Definition poke (st : ust) (n : Z) (f : usrc -> usrc) : ures unit :=
  match mfind n (u_src st) with None => (st, Throw) | Some s => (w_src st (minsert n (f s) (u_src st)), Ok tt) end.
Definition drop {A} (r : ures A) : ures unit := ubind r (fun st _ => (st, Ok tt)).
Definition ustep (st : ust) (o : uop) : ures unit :=
  match o with
  | UAdd n s => addSource st n s
  | UDelete n => deleteSource st n
  | UPoke n p fr => poke st n (fun s => set_par s p fr)
  | USetParam n p fr => ubind (poke st n (fun s => set_par s p fr)) (fun st _ => (syncParams st, Ok tt))
  | USetFreeValues f => (syncParams (w_src st (map (fun ns => (fst ns, set_free_values (f (fst ns)) (snd ns))) (u_src st))), Ok tt)
  | USync => (syncParams st, Ok tt)
  | USyncSrc n => syncSrcParams st n
  | USetEb a b => (set_ebounds st a b, Ok tt)
  | UUnsetEb => (unset_ebounds st, Ok tt)
  | UMove n i => poke st n (fun s => set_img s i)
  | UValue => drop (value st)
  | UGradient => drop (getFreeDerivs st)
  | URestore => restoreBestFit st
  | USaveCurrent => saveCurrentFit st
  end.
(** LogLike.cxx:27-34. *)
Definition uinit : ust := mk_ust [] [] [] [] (clearAndResize (uc_nev g)) (repeat ev_zero (uc_nev g)) 0%R None worst [].
(** A call that throws leaves the recorded state and the client goes on. *)
Fixpoint urun (st : ust) (l : list uop) : option ust :=
  match l with
  | [] => Some st
  | o :: l' => match ustep st o with (st', UB) => None | (st', _) => urun st' l' end
  end.
End Like.

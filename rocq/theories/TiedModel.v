(** Model of the joint likelihood with tied parameters: src/TiedParameter.cxx 35-129 and
    src/Composite2.cxx 30-302.

    A LogLike component is the source container of SrcModel.v: Composite2 only uses its
    parameters(), setFreeParams() and getFreeDerivs().  Components are named by integers
    standing for their addresses, which order the std::map of components.  value() and the
    copying of the composite are not modelled; errors are set exactly like values
    (Composite2.cxx:124-148) and are not modelled either. *)
From Coq Require Import Reals.
From Verif Require Import Base SMap SrcModel.
Local Open Scope Z_scope.

(** std::out_of_range, optimizers::OutOfBounds, an exception from the component, the
    std::runtime_error for an empty composite or an unknown parameter. *)
Inductive texn := TRange | TBounds | TSrc (e : exn) | TEmpty | TUnknown.
Inductive tres (S : Type) := TDone (s : S) | TThrew (e : texn) (s : S) | TUndef.
Arguments TDone {S}. Arguments TThrew {S}. Arguments TUndef {S}.

Definition heap := Z -> model.
Definition hset (h : heap) (c : Z) (m : model) : heap := fun x => if x =? c then m else h x.
(** [like.parameters().at(i) = q]: only the parameter vector of the component changes, the
    spectra of its sources do not. *)
Definition put_par (m : model) (i : nat) (q : param) : model := mk_model (m_src m) (upd (m_par m) i q) (m_freeSrcs m).

(** The optimizers::Parameter base and m_pars. *)
Record tied := mk_tied { t_par : param; t_mem : list (Z * nat) }.
(** TiedParameter.cxx:53-61 (and 120-129, the same test). *)
Definition mem_eqb (a b : Z * nat) : bool := (fst a =? fst b) && (snd a =? snd b)%nat.
Definition has_member (t : tied) (c : Z) (i : nat) : bool := existsb (mem_eqb (c, i)) (t_mem t).

(** TiedParameter.cxx:35-43; [.at(i)] throws out_of_range. *)
Definition addParam (h : heap) (t : tied) (c : Z) (i : nat) : tres (heap * tied) :=
  match t_mem t, nth_error (m_par (h c)) i with
  | [], None => TThrew TRange (h, t)
  | _, _ =>
      let t1 := match t_mem t, nth_error (m_par (h c)) i with [], Some p => mk_tied p (t_mem t) | _, _ => t end in
      if has_member t1 c i then TDone (h, t1) else
      let t2 := mk_tied (t_par t1) (t_mem t1 ++ [(c, i)]) in
      match nth_error (m_par (h c)) i with
      | None => TThrew TRange (h, t2)
      | Some _ => TDone (hset h c (put_par (h c) i (t_par t2)), t2)
      end
  end.
(** TiedParameter.cxx:45-51. *)
Fixpoint remove_first (x : Z * nat) (l : list (Z * nat)) : list (Z * nat) :=
  match l with [] => [] | y :: l' => if mem_eqb x y then l' else y :: remove_first x l' end.
Definition removeParam (t : tied) (c : Z) (i : nat) : tied := mk_tied (t_par t) (remove_first (c, i) (t_mem t)).

(** optimizers::Parameter::setValue: assumed to throw OutOfBounds and change nothing when the
    value is outside the bounds. *)
Definition par_set (p : param) (v : Z) : option param :=
  if (q_lo p <=? v) && (v <=? q_hi p) then Some (with_val p v) else None.
(** TiedParameter.cxx:70-76: the loop over the members. *)
Fixpoint set_members (h : heap) (ms : list (Z * nat)) (v : Z) : tres heap :=
  match ms with
  | [] => TDone h
  | (c, i) :: ms' =>
      match nth_error (m_par (h c)) i with
      | None => TThrew TRange h
      | Some p => match par_set p v with
                  | None => TThrew TBounds h
                  | Some p' => set_members (hset h c (put_par (h c) i p')) ms' v
                  end
      end
  end.
Definition tied_setValue (h : heap) (t : tied) (v : Z) : tres (heap * tied) :=
  match par_set (t_par t) v with
  | None => TThrew TBounds (h, t)
  | Some p => match set_members h (t_mem t) v with
              | TDone h' => TDone (h', mk_tied p (t_mem t))
              | TThrew e h' => TThrew e (h', mk_tied p (t_mem t))
              | TUndef => TUndef
              end
  end.
(** TiedParameter.cxx:100-105: setFree changes the flag of the group and of its members. *)
Definition with_free (p : param) (b : bool) : param := mk_par (q_name p) (q_val p) (q_scale p) (q_lo p) (q_hi p) b.
Fixpoint free_members (h : heap) (ms : list (Z * nat)) (b : bool) : tres heap :=
  match ms with
  | [] => TDone h
  | (c, i) :: ms' =>
      match nth_error (m_par (h c)) i with
      | None => TThrew TRange h
      | Some p => free_members (hset h c (put_par (h c) i (with_free p b))) ms' b
      end
  end.
Definition tied_setFree (h : heap) (t : tied) (b : bool) : tres (heap * tied) :=
  match free_members h (t_mem t) b with
  | TDone h' => TDone (h', mk_tied (with_free (t_par t) b) (t_mem t))
  | TThrew e h' => TThrew e (h', mk_tied (with_free (t_par t) b) (t_mem t))
  | TUndef => TUndef
  end.

(** Composite2.h: m_components, m_tiedPars, and the base class's m_parameter. *)
Record comp2 := mk_c2 { k_heap : heap; k_comps : smap (list nat); k_tied : list tied; k_par : list param }.

(** Composite2.cxx:30-33. *)
Definition addComponent (k : comp2) (c : Z) : comp2 :=
  mk_c2 (k_heap k) (minsert c [] (k_comps k)) (k_tied k) (k_par k).
(** Composite2.cxx:35-43; [dflt] is the value of a default-constructed Parameter.  When
    addParam throws, the new group is lost but the components keep the indices recorded so
    far. *)
Fixpoint tie_loop (h : heap) (comps : smap (list nat)) (t : tied) (pars : list (Z * nat)) : tres (heap * smap (list nat) * tied) :=
  match pars with
  | [] => TDone (h, comps, t)
  | (c, i) :: pars' =>
      match addParam h t c i with
      | TDone (h', t') =>
          let tl := match mfind c comps with Some l => l | None => [] end in
          tie_loop h' (minsert c (tl ++ [i]) comps) t' pars'
      | TThrew e (h', t') => TThrew e (h', comps, t')
      | TUndef => TUndef
      end
  end.
Definition tieParameters (dflt : param) (k : comp2) (pars : list (Z * nat)) : tres comp2 :=
  match tie_loop (k_heap k) (k_comps k) (mk_tied dflt []) pars with
  | TDone (h, comps, t) => TDone (mk_c2 h comps (k_tied k ++ [t]) (k_par k))
  | TThrew e (h, comps, _) => TThrew e (mk_c2 h comps (k_tied k) (k_par k))
  | TUndef => TUndef
  end.

Definition is_tied (tl : list nat) (i : nat) : bool := existsb (Nat.eqb i) tl.
(** The loop body shared by Composite2.cxx:60-71, 103-113 and 178-189. *)
Fixpoint untied (tl : list nat) (i : nat) (ps : list param) : list param :=
  match ps with
  | [] => []
  | p :: ps' => if q_free p && negb (is_tied tl i) then p :: untied tl (S i) ps' else untied tl (S i) ps'
  end.
(** Composite2.cxx:54-79. *)
Definition getFreeParams (k : comp2) : option (list param) :=
  match k_comps k with
  | [] => None
  | _ => Some (flat_map (fun p => untied (snd p) 0 (m_par (k_heap k (fst p)))) (k_comps k) ++
               map t_par (filter (fun t => q_free (t_par t)) (k_tied k)))
  end.
(** Composite2.cxx:81-95 with getFree; [None] is the exception. *)
Definition fetchParamValues (k : comp2) : option (list Z) := option_map (map q_val) (getFreeParams k).
(** Composite2.cxx:176-197. *)
Definition getNumFreeParams (k : comp2) : nat :=
  (list_sum (map (fun p => length (untied (snd p) 0 (m_par (k_heap k (fst p))))) (k_comps k)) +
   length (filter (fun t => q_free (t_par t)) (k_tied k)))%nat.

(** Composite2.cxx:105-112: new parameters and the values not consumed yet. *)
Fixpoint set_untied (tl : list nat) (i : nat) (ps : list param) (vs : list Z) : list param * tres (list Z) :=
  match ps with
  | [] => ([], TDone vs)
  | p :: ps' =>
      if q_free p && negb (is_tied tl i) then
        match vs with
        | [] => (p :: ps', TThrew TRange vs)
        | v :: vs' => match par_set p v with
                      | None => (p :: ps', TThrew TBounds vs)
                      | Some p' => let (r, e) := set_untied tl (S i) ps' vs' in (p' :: r, e)
                      end
        end
      else let (r, e) := set_untied tl (S i) ps' vs in (p :: r, e)
  end.
(** Composite2.cxx:103-114. *)
Fixpoint set_comps (h : heap) (comps : smap (list nat)) (vs : list Z) : heap * tres (list Z) :=
  match comps with
  | [] => (h, TDone vs)
  | (c, tl) :: comps' =>
      let (ps, e) := set_untied tl 0 (m_par (h c)) vs in
      let h' := hset h c (mk_model (m_src (h c)) ps (m_freeSrcs (h c))) in
      match e with
      | TDone vs' => set_comps h' comps' vs'
      | _ => (h', e)
      end
  end.
(** Composite2.cxx:116-120. *)
Fixpoint set_tied (h : heap) (ts : list tied) (vs : list Z) : heap * list tied * tres (list Z) :=
  match ts with
  | [] => (h, [], TDone vs)
  | t :: ts' =>
      if q_free (t_par t) then
        match vs with
        | [] => (h, t :: ts', TThrew TRange vs)
        | v :: vs' =>
            match tied_setValue h t v with
            | TDone (h', t') => let '(h'', r, e) := set_tied h' ts' vs' in (h'', t' :: r, e)
            | TThrew e (h', t') => (h', t' :: ts', TThrew e vs)
            | TUndef => (h, t :: ts', TUndef)
            end
        end
      else let '(h', r, e) := set_tied h ts' vs in (h', t :: r, e)
  end.
(** Composite2.cxx:152-168: hand each component its own free parameters. *)
Fixpoint sync_comps (h : heap) (comps : smap (list nat)) : tres heap :=
  match comps with
  | [] => TDone h
  | (c, _) :: comps' =>
      match setParams sel_free (h c) (filter q_free (m_par (h c))) with
      | Done m => sync_comps (hset h c m) comps'
      | Threw e m => TThrew (TSrc e) (hset h c m)
      | Undef => TUndef
      end
  end.
(** The composite's own parameter vector (Composite2.cxx:151, 161-165, 171-173): a component
    contributes before it is synchronised. *)
Fixpoint untied_all (tl : list nat) (i : nat) (ps : list param) : list param :=
  match ps with
  | [] => []
  | p :: ps' => if negb (is_tied tl i) then p :: untied_all tl (S i) ps' else untied_all tl (S i) ps'
  end.
Definition own_params (k : comp2) : list param :=
  flat_map (fun p => untied_all (snd p) 0 (m_par (k_heap k (fst p)))) (k_comps k) ++ map t_par (k_tied k).
(** Composite2.cxx:150-174.  On an exception the partly filled vector is not followed. *)
Definition syncComposite (k : comp2) : tres comp2 :=
  match sync_comps (k_heap k) (k_comps k) with
  | TDone h => TDone (mk_c2 h (k_comps k) (k_tied k) (own_params k))
  | TThrew e h => TThrew e (mk_c2 h (k_comps k) (k_tied k) [])
  | TUndef => TUndef
  end.
(** Composite2.cxx:97-122.  Values left over at the end are ignored, as in the code. *)
Definition setFreeParamValues (k : comp2) (vs : list Z) : tres comp2 :=
  match k_comps k with
  | [] => TThrew TEmpty k
  | _ =>
      match set_comps (k_heap k) (k_comps k) vs with
      | (h, TDone vs1) =>
          match set_tied h (k_tied k) vs1 with
          | (h', ts, TDone _) => syncComposite (mk_c2 h' (k_comps k) ts (k_par k))
          | (h', ts, TThrew e _) => TThrew e (mk_c2 h' (k_comps k) ts (k_par k))
          | (_, _, TUndef) => TUndef
          end
      | (h, TThrew e _) => TThrew e (mk_c2 h (k_comps k) (k_tied k) (k_par k))
      | (_, TUndef) => TUndef
      end
  end.

(** ** Derivatives *)
(** Composite2.cxx:219-225: add [d] to the sum of every group containing the parameter. *)
Definition add_tied (ts : list tied) (c : Z) (i : nat) (d : R) (tp : list R) : list R :=
  map (fun p => if has_member (fst p) c i then (snd p + d)%R else snd p) (combine ts tp).
(** Composite2.cxx:208-229 for one component; [fd] are its free derivatives not used yet
    ([freeDerivs.at(j)] throws past the end). *)
Fixpoint derivs_comp (ts : list tied) (c : Z) (tl : list nat) (i : nat) (ps : list param) (fd : list R)
    (tp : list R) : option (list R * list R) :=
  match ps with
  | [] => Some ([], tp)
  | p :: ps' =>
      if q_free p then
        match fd with
        | [] => None
        | d :: fd' =>
            if negb (is_tied tl i) then
              match derivs_comp ts c tl (S i) ps' fd' tp with
              | Some (r, tp') => Some (d :: r, tp')
              | None => None
              end
            else derivs_comp ts c tl (S i) ps' fd' (add_tied ts c i d tp)
        end
      else derivs_comp ts c tl (S i) ps' fd tp
  end.
(** Composite2.cxx:202-230; [fd c] is what getFreeDerivs of component [c] returns. *)
Fixpoint derivs_comps (h : heap) (ts : list tied) (comps : smap (list nat)) (fd : Z -> list R) (tp : list R) : option (list R * list R) :=
  match comps with
  | [] => Some ([], tp)
  | (c, tl) :: comps' =>
      match derivs_comp ts c tl 0 (m_par (h c)) (fd c) tp with
      | None => None
      | Some (r, tp') => match derivs_comps h ts comps' fd tp' with
                         | None => None
                         | Some (r', tp'') => Some (r ++ r', tp'')
                         end
      end
  end.
(** Composite2.cxx:199-236. *)
Definition getFreeDerivs (k : comp2) (fd : Z -> list R) : option (list R) :=
  match derivs_comps (k_heap k) (k_tied k) (k_comps k) fd (repeat 0%R (length (k_tied k))) with
  | None => None
  | Some (r, tp) => Some (r ++ map snd (filter (fun p => q_free (t_par (fst p))) (combine (k_tied k) tp)))
  end.

(** ** Index lookup *)
(** Composite2.cxx:246-258: the matching component; [inl] is a return. *)
Fixpoint find_in (tl : list nat) (target : nat) (i : nat) (ps : list param) (j : Z) : Z + Z :=
  match ps with
  | [] => inr j
  | p :: ps' => if is_tied tl i || negb (q_free p) then find_in tl target (S i) ps' j
                else if (target =? i)%nat then inl j else find_in tl target (S i) ps' (j + 1)
  end.
(** Composite2.cxx:241-270. *)
Fixpoint find_comps (h : heap) (comps : smap (list nat)) (c : Z) (target : nat) (j : Z) : Z + Z :=
  match comps with
  | [] => inr j
  | (c', tl) :: comps' =>
      if c =? c' then
        match find_in tl target 0 (m_par (h c')) j with
        | inl r => inl r
        | inr j' => find_comps h comps' c target j'
        end
      else find_comps h comps' c target (j + Z.of_nat (length (untied tl 0 (m_par (h c')))))
  end.
(** Composite2.cxx:272-277. *)
Fixpoint find_tied (ts : list tied) (c : Z) (target : nat) (j : Z) : Z :=
  match ts with
  | [] => -1
  | t :: ts' => if has_member t c target then j else find_tied ts' c target (j + 1)
  end.
Definition findIndex (k : comp2) (c : Z) (target : nat) : Z :=
  match find_comps (k_heap k) (k_comps k) c target 0 with
  | inl j => j
  | inr j => find_tied (k_tied k) c target j
  end.

(** Composite2.cxx:292-302. *)
Fixpoint set_first (h : heap) (ts : list tied) (c : Z) (i : nat) (v : Z) : tres (heap * list tied) :=
  match ts with
  | [] => TThrew TUnknown (h, [])
  | t :: ts' =>
      if has_member t c i then
        match tied_setValue h t v with
        | TDone (h', t') => TDone (h', t' :: ts')
        | TThrew e (h', t') => TThrew e (h', t' :: ts')
        | TUndef => TUndef
        end
      else match set_first h ts' c i v with
           | TDone (h', r) => TDone (h', t :: r)
           | TThrew e (h', r) => TThrew e (h', t :: r)
           | TUndef => TUndef
           end
  end.
Definition setTiedParamValue (k : comp2) (c : Z) (i : nat) (v : Z) : tres comp2 :=
  match set_first (k_heap k) (k_tied k) c i v with
  | TDone (h, ts) => TDone (mk_c2 h (k_comps k) ts (k_par k))
  | TThrew e (h, ts) => TThrew e (mk_c2 h (k_comps k) ts (k_par k))
  | TUndef => TUndef
  end.

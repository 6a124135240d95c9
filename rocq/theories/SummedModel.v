(** Model of src/SummedLikelihood.cxx 29-248: several likelihoods with one source model.

    The components are assumed to be distinct objects; the first one added is the master.
    Groups of tied parameters hold members of the master only; TiedModel.v is used with the
    master as component 0.  value(), NpredValue and setErrors are not modelled, nor the
    priors; getTiedParam and setTiedParamValue always throw (250-258). *)
From Coq Require Import Reals.
From Verif Require Import Base SMap SrcModel TiedModel.
Local Open Scope Z_scope.

(** m_components (the head is m_masterComponent), m_tiedPars, m_tiedIndices. *)
Record summed := mk_sum { u_comps : list model; u_tied : list tied; u_idx : list nat }.
(** SummedLikelihood.cxx:29-34. *)
Definition u_add (u : summed) (m : model) : summed := mk_sum (u_comps u ++ [m]) (u_tied u) (u_idx u).

(** SummedLikelihood.cxx:48-71: the parameters are appended to [acc]. *)
Definition u_getFreeParams (u : summed) (acc : list param) : option (list param) :=
  match u_comps u with
  | [] => None
  | m :: _ => Some (acc ++ untied (u_idx u) 0 (m_par m) ++ map t_par (filter (fun t => q_free (t_par t)) (u_tied u)))
  end.
(** SummedLikelihood.cxx:131-143 with getFree. *)
Definition u_fetch (u : summed) : option (list Z) := option_map (map q_val) (u_getFreeParams u []).
(** SummedLikelihood.cxx:113-129; with no component the master pointer is null. *)
Definition u_numFree (u : summed) : option nat :=
  match u_comps u with
  | [] => None
  | m :: _ => Some (length (untied (u_idx u) 0 (m_par m)) + length (filter (fun t => q_free (t_par t)) (u_tied u)))%nat
  end.

(** SummedLikelihood.cxx:95-102: [qs] is the master's parameter vector. *)
Fixpoint u_sync_all (qs : list param) (cs : list model) : tres (list model) :=
  match cs with
  | [] => TDone []
  | c :: cs' =>
      match setParams sel_all c qs with
      | Done c' => match u_sync_all qs cs' with
                   | TDone r => TDone (c' :: r)
                   | TThrew e r => TThrew e (c' :: r)
                   | TUndef => TUndef
                   end
      | Threw e c' => TThrew (TSrc e) (c' :: cs')
      | Undef => TUndef
      end
  end.
(** The master comes first; afterwards its parameter vector has been rebuilt. *)
Definition u_sync (m : model) (rest : list model) : tres (list model) :=
  match setParams sel_all m (m_par m) with
  | Done m' => match u_sync_all (m_par m') rest with
               | TDone r => TDone (m' :: r)
               | TThrew e r => TThrew e (m' :: r)
               | TUndef => TUndef
               end
  | Threw e m' => TThrew (TSrc e) (m' :: rest)
  | Undef => TUndef
  end.
(** SummedLikelihood.cxx:73-93. *)
Definition u_setFree (u : summed) (vs : list Z) : tres summed :=
  match u_comps u with
  | [] => TThrew TEmpty u
  | m :: rest =>
      let (ps, e) := set_untied (u_idx u) 0 (m_par m) vs in
      let m1 := mk_model (m_src m) ps (m_freeSrcs m) in
      match e with
      | TDone vs1 =>
          match set_tied (fun _ => m1) (u_tied u) vs1 with
          | (h, ts, TDone _) =>
              match u_sync (h 0) rest with
              | TDone cs => TDone (mk_sum cs ts (u_idx u))
              | TThrew x cs => TThrew x (mk_sum cs ts (u_idx u))
              | TUndef => TUndef
              end
          | (h, ts, TThrew x _) => TThrew x (mk_sum (h 0 :: rest) ts (u_idx u))
          | (_, _, TUndef) => TUndef
          end
      | TThrew x _ => TThrew x (mk_sum (m1 :: rest) (u_tied u) (u_idx u))
      | TUndef => TUndef
      end
  end.

(** SummedLikelihood.cxx:187-200.  The exception for a parameter already tied comes after
    addParam has changed the master. *)
Fixpoint u_tie_loop (m : model) (t : tied) (idx : list nat) (pars : list nat) : tres (model * tied * list nat) :=
  match pars with
  | [] => TDone (m, t, idx)
  | i :: pars' =>
      match addParam (fun _ => m) t 0 i with
      | TDone (h, t') => if is_tied idx i then TThrew TUnknown (h 0, t', idx) else u_tie_loop (h 0) t' (i :: idx) pars'
      | TThrew e (h, t') => TThrew e (h 0, t', idx)
      | TUndef => TUndef
      end
  end.
Definition u_tie (dflt : param) (u : summed) (pars : list nat) : tres summed :=
  match u_comps u with
  | [] => match pars with [] => TDone (mk_sum [] (u_tied u ++ [mk_tied dflt []]) (u_idx u)) | _ => TUndef end
  | m :: rest =>
      match u_tie_loop m (mk_tied dflt []) (u_idx u) pars with
      | TDone (m', t, idx) => TDone (mk_sum (m' :: rest) (u_tied u ++ [t]) idx)
      | TThrew e (m', _, idx) => TThrew e (mk_sum (m' :: rest) (u_tied u) idx)
      | TUndef => TUndef
      end
  end.

(** SummedLikelihood.cxx:227-248. *)
Definition u_findIndex (u : summed) (m : model) (i : nat) : Z :=
  match find_in (u_idx u) i 0 (m_par m) 0 with
  | inl j => j
  | inr j => find_tied (u_tied u) 0 i j
  end.

(** SummedLikelihood.cxx:158-166: the map from position to slot. *)
Fixpoint free_index (u : summed) (m : model) (i : nat) (ps : list param) (v : nat) (acc : smap nat) : smap nat :=
  match ps with
  | [] => acc
  | p :: ps' =>
      let j := u_findIndex u m i in
      let acc' := if -1 <? j then minsert j v acc else acc in
      free_index u m (S i) ps' (if q_free p then S v else v) acc'
  end.
(** SummedLikelihood.cxx:178-181: [derivs.at(key) += freeDerivs.at(value)]; [None] is the
    out_of_range exception. *)
Fixpoint add_index (fi : smap nat) (fd : list R) (ds : list R) : option (list R) :=
  match fi with
  | [] => Some ds
  | (j, v) :: fi' =>
      match nth_error ds (Z.to_nat j), nth_error fd v with
      | Some d, Some x => add_index fi' fd (upd ds (Z.to_nat j) (d + x)%R)
      | _, _ => None
      end
  end.
Fixpoint add_all (fi : smap nat) (fds : list (list R)) (ds : list R) : option (list R) :=
  match fds with
  | [] => Some ds
  | fd :: fds' => match add_index fi fd ds with Some ds' => add_all fi fds' ds' | None => None end
  end.
(** SummedLikelihood.cxx:145-185; [fds] are the free derivatives of the components in order,
    [d0] the contents of the output vector at the call.  [None] also when there is no
    component (null master). *)
Definition u_getFreeDerivs (u : summed) (fds : list (list R)) (d0 : list R) : option (list R) :=
  match u_comps u with
  | [] => None
  | m :: _ =>
      let fi := free_index u m 0 (m_par m) 0 [] in
      add_all fi fds (vec_resize d0 (length fi) 0%R)
  end.

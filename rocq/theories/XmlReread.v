(** Reading a file again, reading into a model, and the files for flux simulations. *)
From Verif Require Import Base AccumModel AccumProofs XmlText XmlModel XmlSpec XmlTextProofs XmlProofs.
From Coq Require Import String Ascii Reals Lra Sorted Permutation.
Local Open Scope nat_scope.
Local Open Scope string_scope.
Local Open Scope list_scope.

Section Reread.
Variables (wr : R -> string) (rd : string -> option R) (rnd : R -> R).
Variable create : string -> option func.
Variable readable : string -> bool.
Variables lo hi : R.
Variable separation : R * R -> R * R -> R.
Hypothesis Hd : decimals wr rd rnd.

Lemma parse_param_ok p : param_ok p -> parse_param rd lo hi (param_node wr p) = Ok (Some (stored_param rnd p)).
Proof.
  intros [[Hb1 Hb2] _]. unfold parse_param, opt_double, param_node.
  rewrite !attr_cons. cbn [String.eqb Ascii.eqb Bool.eqb]. rewrite !(d_back _ _ _ Hd).
  pose proof (d_mono _ _ _ Hd _ _ Hb1) as M1. pose proof (d_mono _ _ _ Hd _ _ Hb2) as M2.
  destruct (Rltb_spec (rnd (p_value p)) (rnd (p_min p))); [lra|].
  destruct (Rltb_spec (rnd (p_max p)) (rnd (p_value p))); [lra|]. cbn [orb obind fst snd].
  unfold stored_param. destruct (p_free p); reflexivity.
Qed.
Lemma parse_params_ok t a ps : List.Forall param_ok ps ->
  parse_params rd lo hi (Node t a (map (param_node wr) ps)) = Ok (map (stored_param rnd) ps).
Proof.
  intros H. unfold parse_params. rewrite children_params.
  assert (G : forall acc, mfold (fun l c => obind (parse_param rd lo hi c) (fun o => Ok (match o with Some p => l ++ [p] | None => l end)))
              (map (param_node wr) ps) acc = Ok (acc ++ map (stored_param rnd) ps)).
  { induction ps as [|p ps IH]; intros acc; cbn [map mfold]; [now rewrite app_nil_r|].
    inversion H; subst. rewrite parse_param_ok by auto. cbn [obind]. rewrite IH by auto. now rewrite <- app_assoc. }
  apply G.
Qed.
Lemma set_params_ok f f' : List.length (f_params f) = List.length (f_params f') ->
  set_params f' (map (stored_param rnd) (f_params f)) = Ok (take_params rnd f f').
Proof.
  intros H. unfold set_params, take_params. destruct (f_params f) as [|p ps] eqn:E.
  - destruct f' as [t [|q qs] fi sc kn]; [reflexivity|discriminate].
  - cbn [map]. cbn [List.length] in *. rewrite map_length, <- H, Nat.eqb_refl. reflexivity.
Qed.
Lemma reread_spec_ok f f' : func_text f -> List.length (f_params f) = List.length (f_params f') ->
  reread_func rd lo hi f' (Some (spectral_node wr f)) = Ok (take_params rnd f f').
Proof.
  intros (_ & _ & _ & Hp) H. cbn [reread_func]. unfold spectral_node. rewrite parse_params_ok by auto.
  cbn [obind]. now apply set_params_ok.
Qed.
Lemma reread_position_ok t a ra dec :
  reread_position rd (Node t a (map (param_node wr) (position_params ra dec))) = (rnd ra, rnd dec).
Proof.
  unfold reread_position. rewrite children_params. unfold position_params. cbn [map fold_left].
  unfold opt_double, param_node. rewrite !attr_cons. cbn [p_name p_value String.eqb Ascii.eqb Bool.eqb].
  rewrite !(d_back _ _ _ Hd). reflexivity.
Qed.

Lemma reread_source_ok s s' : writable s -> restorable s s' ->
  reread_source rd lo hi separation (source_node wr s) s' = (restored rnd separation s s', false).
Proof.
  clear create readable. intros Hw [Hl Hk].
  destruct s as [n f g ra dec|n f g d mb|n f g l], s' as [n' f' g' ra' dec'|n' f' g' d' mb'|n' f' g' l']; try tauto;
    destruct Hw as (_ & Hf & Hb); cbn [s_spec] in *; unfold reread_source; cbn [source_node]; rewrite !attr_cons; cbn [String.eqb Ascii.eqb Bool.eqb];
    unfold first_child, children; cbn [n_kids filter n_tag spectral_node String.eqb Ascii.eqb Bool.eqb hd_error s_spec];
    change (Node "spectrum" _ _) with (spectral_node wr f); rewrite reread_spec_ok by auto; cbn [with_spec].
  - rewrite reread_position_ok. cbn [fst snd restored].
    destruct (Rltb_spec (1 / 10000) (separation (rnd ra, rnd dec) (ra', dec')));
      destruct (Rlt_dec (1 / 10000) (separation (rnd ra, rnd dec) (ra', dec'))); try lra; reflexivity.
  - destruct Hb as (_ & _ & _ & Hp). cbn [reread_func]. rewrite parse_params_ok by auto. cbn [obind].
    rewrite set_params_ok by auto. reflexivity.
Qed.

Lemma restored_name s s' : s_name (restored rnd separation s s') = s_name s'.
Proof. destruct s, s'; try reflexivity. cbn [restored]. destruct (Rlt_dec _ _); reflexivity. Qed.

Lemma update_named_ok n f g m :
  NoDup (map s_name m) -> (forall s, In s m -> s_name s = n -> f s = (g s, false)) ->
  update_named n f m = (map (fun s => if s_name s =? n then g s else s) m, false).
Proof.
  induction m as [|s m IH]; intros Hnd H; [reflexivity|]. cbn [update_named map]. inversion Hnd; subst.
  destruct (String.eqb_spec (s_name s) n) as [E|E].
  - rewrite (H s (or_introl eq_refl) E). f_equal. f_equal. rewrite <- (map_id m) at 1. apply map_ext_in.
    intros x Hx. destruct (String.eqb_spec (s_name x) n) as [E'|E']; [|reflexivity].
    exfalso. apply H2. rewrite E, <- E'. now apply in_map.
  - rewrite IH; auto. intros x Hx. apply H. now right.
Qed.

Lemma reread_all_ok m : forall m',
  List.Forall writable m -> NoDup (map s_name m) -> NoDup (map s_name m') ->
  (forall s s', In s m -> In s' m' -> s_name s = s_name s' -> restorable s s') ->
  reread_all rd lo hi separation (map (source_node wr) m) m' =
  (map (fun s' => match find (fun s => s_name s =? s_name s') m with
                  | Some s => restored rnd separation s s' | None => s' end) m', false).
Proof.
  induction m as [|s m IH]; intros m' Hw Hn Hn' Hr; cbn [map reread_all].
  - f_equal. symmetry. apply map_id.
  - inversion Hw; subst. inversion Hn; subst.
    assert (E : attr (source_node wr s) "name" = Some (s_name s)) by (destruct s; reflexivity). rewrite E.
    rewrite (update_named_ok _ _ (restored rnd separation s)); auto.
    2:{ intros x Hx Ex. apply reread_source_ok; auto. apply Hr; auto. now left. }
    assert (En : map s_name (map (fun x => if s_name x =? s_name s then restored rnd separation s x else x) m') = map s_name m').
    { rewrite map_map. apply map_ext. intros x. destruct (s_name x =? s_name s); [apply restored_name|reflexivity]. }
    rewrite IH; auto.
    + f_equal. rewrite map_map. apply map_ext_in. intros x Hx. cbn [find].
      rewrite (String.eqb_sym (s_name s) (s_name x)). destruct (String.eqb_spec (s_name x) (s_name s)) as [Ex|Ex]; [|reflexivity].
      rewrite restored_name. destruct (find _ m) as [y|] eqn:Ey; [|reflexivity].
      apply find_some in Ey as [Hy Ey]. apply String.eqb_eq in Ey. exfalso. apply H3. rewrite <- Ex, <- Ey. now apply in_map.
    + now rewrite En.
    + intros y x Hy Hx Eyx. apply in_map_iff in Hx as (x0 & <- & Hx0).
      destruct (String.eqb_spec (s_name x0) (s_name s)) as [Ex|Ex].
      * rewrite restored_name in Eyx. exfalso. apply H3. rewrite <- Ex, <- Eyx. now apply in_map.
      * apply Hr; auto. now right.
Qed.

Lemma reReadFile_plain fl t m m' :
  text_ok fl -> text_ok t -> List.Forall writable m ->
  reReadFile rd lo hi separation (writeXml wr fl t m) m' = reread_all rd lo hi separation (map (source_node wr) m) m'.
Proof.
  intros H1 H2 H3. unfold reReadFile, writeXml. rewrite parse_write by (eapply library_plain; eauto).
  cbn [find n_tag library_node String.eqb Ascii.eqb Bool.eqb]. unfold reReadXml.
  pose proof (children_sources wr "source_library" ((if fl =? "" then [] else [("function_library", fl)]) ++ [("title", t)]) m) as E.
  unfold library_node. rewrite E. reflexivity.
Qed.

(** ** Composites stop a second reading *)
Lemma update_named_names n f m : (forall s, s_name (fst (f s)) = s_name s) ->
  map s_name (fst (update_named n f m)) = map s_name m.
Proof.
  intros H. induction m as [|s m IH]; [reflexivity|]. cbn [update_named].
  destruct (s_name s =? n).
  - specialize (H s). destruct (f s). cbn [fst map] in *. now rewrite H.
  - destruct (update_named n f m). cbn [fst map] in *. now rewrite IH.
Qed.
Lemma with_spec_name f s : s_name (with_spec f s) = s_name s.
Proof. destruct s; reflexivity. Qed.
Lemma reread_source_name n s : s_name (fst (reread_source rd lo hi separation n s)) = s_name s.
Proof.
  unfold reread_source. destruct (attr n "type") as [t|]; [|reflexivity].
  destruct (reread_func _ _ _ _ _) as [f| |]; try reflexivity.
  destruct (t =? "PointSource"); [|destruct (t =? "DiffuseSource"); [|apply with_spec_name]];
    destruct (first_child n "spatialModel") as [sp|]; try apply with_spec_name; destruct s; cbn [with_spec]; try reflexivity.
  - destruct (Rltb _ _); reflexivity.
  - destruct (reread_func _ _ _ _ _); reflexivity.
Qed.
Lemma update_throws n f m : In n (map s_name m) -> (forall s, snd (f s) = true) -> snd (update_named n f m) = true.
Proof.
  intros Hi H. induction m as [|s m IH]; [destruct Hi|]. cbn [update_named]. cbn [map] in Hi.
  destruct (String.eqb_spec (s_name s) n) as [E|E].
  - specialize (H s). destruct (f s). exact H.
  - destruct Hi as [?|Hi]; [contradiction|]. specialize (IH Hi). destruct (update_named n f m). exact IH.
Qed.
Lemma reread_composite n f g l s : snd (reread_source rd lo hi separation (source_node wr (Composite n f g l)) s) = true.
Proof.
  unfold reread_source. cbn [source_node]. rewrite !attr_cons. cbn [String.eqb Ascii.eqb Bool.eqb].
  destruct (reread_func _ _ _ _ _); reflexivity.
Qed.
Lemma reread_all_composite m c : forall m',
  In c m -> (exists n f g l, c = Composite n f g l) -> In (s_name c) (map s_name m') ->
  snd (reread_all rd lo hi separation (map (source_node wr) m) m') = true.
Proof.
  induction m as [|s m IH]; intros m' Hi Hc Hm; [destruct Hi|]. cbn [map reread_all].
  assert (E : attr (source_node wr s) "name" = Some (s_name s)) by (destruct s; reflexivity). rewrite E.
  pose proof (update_named_names (s_name s) (reread_source rd lo hi separation (source_node wr s)) m' (reread_source_name _)) as En.
  destruct Hi as [->|Hi].
  - pose proof (update_throws (s_name c) (reread_source rd lo hi separation (source_node wr c)) m' Hm) as T.
    destruct (update_named _ _ _). destruct Hc as (n & f & g & mem & ->). cbn [snd] in T.
    rewrite T by (intros; apply reread_composite). reflexivity.
  - destruct (update_named _ _ _) as [m'' b]. cbn [fst] in En. destruct b; [reflexivity|]. apply IH; auto. now rewrite En.
Qed.

(** ** Writing what was read *)
Lemma node_stored require s : (forall x, wr (rnd x) = wr x) -> source_node wr (stored rnd require s) = source_node wr s.
Proof.
  intros Hi.
  assert (Hps : forall ps, map (param_node wr) (map (stored_param rnd) ps) = map (param_node wr) ps).
  { intros ps. rewrite map_map. apply map_ext. intros p. unfold param_node, stored_param.
    cbn [p_name p_value p_scale p_min p_max p_free]. now rewrite !Hi. }
  assert (Hf : forall f, spectral_node wr (stored_func rnd f) = spectral_node wr f).
  { intros f. unfold spectral_node, stored_func. cbv zeta. destruct (has_list (f_type f)); cbn [f_type f_params f_file f_scaling]; now rewrite Hps. }
  induction s as [n f g a d|n f g sp mb|n f g l IH] using source_ind'; cbn [stored source_node]; rewrite Hf.
  - unfold position_params, param_node. cbn [map p_name p_value p_scale p_min p_max p_free]. now rewrite !Hi.
  - unfold stored_func. cbv zeta. destruct (has_list (f_type sp)); cbn [f_type f_params f_file f_scaling]; now rewrite Hps.
  - rewrite map_map.
    replace (map (fun x => source_node wr (stored rnd require x)) l) with (map (source_node wr) l); [reflexivity|].
    symmetry. apply map_ext_in. intros x Hx. rewrite Forall_forall in IH. now apply IH.
Qed.

(** ** Reading into a model *)
Lemma add_source_perm s : forall m m', add_source s m = Some m' -> Permutation (s :: m) m'.
Proof.
  induction m as [|x m IH]; intros m' H; cbn [add_source] in H.
  - injection H as <-. auto.
  - destruct (String.ltb (s_name s) (s_name x)); [injection H as <-; auto|].
    destruct (s_name s =? s_name x); [discriminate|]. destruct (add_source s m) as [m0|]; [|discriminate].
    injection H as <-. rewrite perm_swap. constructor. now apply IH.
Qed.
Lemma ltb_total a b : String.ltb a b = false -> (a =? b) = false -> String.ltb b a = true.
Proof.
  intros H1 H2. unfold String.ltb in *. rewrite String.compare_antisym. destruct (String.compare a b) eqn:E; simpl; auto; try discriminate.
  apply String.compare_eq_iff in E. subst. rewrite String.eqb_refl in H2. discriminate.
Qed.
Lemma add_source_sorted s : forall m m', (forall a b c, String.ltb a b = true -> String.ltb b c = true -> String.ltb a c = true) ->
  sorted_names m -> add_source s m = Some m' -> sorted_names m'.
Proof.
  intros m m' tr. revert m'. unfold sorted_names. induction m as [|x m IH]; intros m' Hs H; cbn [add_source] in H.
  - injection H as <-. repeat constructor.
  - cbn [map] in Hs. inversion Hs; subst. destruct (String.ltb (s_name s) (s_name x)) eqn:E1.
    + injection H as <-. cbn [map]. constructor; [exact Hs|]. constructor; [exact E1|].
      eapply Forall_impl; [|exact H3]. intros a. apply tr. exact E1.
    + destruct (s_name s =? s_name x) eqn:E2; [discriminate|]. destruct (add_source s m) as [m0|] eqn:E3; [|discriminate].
      injection H as <-. cbn [map]. constructor; [now apply IH|].
      apply add_source_perm in E3. rewrite Forall_forall in *. intros y Hy.
      apply (Permutation_in y (Permutation_sym (Permutation_map s_name E3))) in Hy. destruct Hy as [<-|Hy]; [|auto].
      apply ltb_total; auto.
Qed.

Lemma add_until_perm l : forall m m' b, add_until l m = (m', b) ->
  exists a, incl a l /\ Permutation (m ++ a) m' /\ (b = false -> a = l).
Proof.
  induction l as [|s l IH]; intros m m' b H; cbn [add_until] in H.
  - injection H as <- <-. exists []. rewrite app_nil_r. repeat split; auto. intros x [].
  - destruct (add_source s m) as [m0|] eqn:E.
    + apply IH in H as (a & H1 & H2 & H3). exists (s :: a). split; [|split].
      * intros x [<-|Hx]; [now left|right; auto].
      * rewrite <- Permutation_middle. rewrite <- H2. apply add_source_perm in E. change (s :: m ++ a) with ((s :: m) ++ a). now apply Permutation_app_tail.
      * intros ->. now rewrite H3.
    + injection H as <- <-. exists []. rewrite app_nil_r. repeat split; auto; [intros x []|discriminate].
Qed.
Lemma add_sources_perm l : forall m r, add_sources l m = Ok r -> Permutation (m ++ l) r.
Proof.
  intros m r H. apply add_until_ok in H. apply add_until_perm in H as (a & _ & H2 & H3). now rewrite H3 in H2.
Qed.
Lemma add_until_sorted l : (forall a b c, String.ltb a b = true -> String.ltb b c = true -> String.ltb a c = true) ->
  forall m, sorted_names m -> sorted_names (fst (add_until l m)).
Proof.
  intros tr. induction l as [|s l IH]; intros m H; cbn [add_until]; [exact H|].
  destruct (add_source s m) as [m0|] eqn:E; [|exact H]. apply IH. eapply add_source_sorted; eauto.
Qed.

Lemma attr_value n k : attr_or n k "" = value_of n k.
Proof. unfold attr_or, attr, value_of. destruct (find _ _); reflexivity. Qed.
Lemma set_name_name n s : s_name (set_name n s) = n.
Proof. destruct s; reflexivity. Qed.
Lemma source_of_name require addPoint n lib o :
  n_tag n = "source" -> source_of rd create readable lo hi require addPoint n lib = Ok o ->
  option_map s_name o = if yields addPoint n then Some (value_of n "name") else None.
Proof.
  intros Ht H. unfold source_of in H. unfold yields. rewrite Ht. change ("source" =? "source") with true. cbn [andb].
  rewrite !attr_value in H. destruct (children n "spectrum") as [|sp [|? ?]]; try discriminate.
  destruct (value_of n "type" =? "CompositeSource") eqn:E1; cbn [orb].
  - destruct (children n "source_library") as [|l0 [|? ?]]; try discriminate.
    destruct (makeCompositeSource _ _ _ _ _ _ _); try discriminate. injection H as <-. cbn [option_map]. now rewrite set_name_name.
  - destruct (children n "spatialModel") as [|sm [|? ?]]; try discriminate.
    destruct (addPoint && (value_of n "type" =? "PointSource")) eqn:E2.
    + rewrite orb_true_r. destruct (makePointSource _ _ _ _ _ _ _ _) as [s| |]; try discriminate. cbn [obind] in H.
      destruct (with_flags sm s); try discriminate. injection H as <-. cbn [option_map]. now rewrite set_name_name.
    + rewrite orb_false_r. destruct (value_of n "type" =? "DiffuseSource").
      * destruct (makeDiffuseSource _ _ _ _ _ _ _ _) as [s| |]; try discriminate. cbn [obind] in H.
        destruct (with_flags sm s); try discriminate. injection H as <-. cbn [option_map]. now rewrite set_name_name.
      * injection H as <-. reflexivity.
Qed.
Lemma makeSources_names require addPoint : forall depth n l,
  makeSources rd create readable lo hi depth require addPoint n = Ok l -> map s_name l = names_in addPoint n.
Proof.
  intros [|depth] n l H; [discriminate|]. cbn [makeSources] in H. unfold names_in, children in *.
  assert (G : forall ks acc l, mfold (fun l n => obind (source_of rd create readable lo hi require addPoint n (makeSources rd create readable lo hi depth require addPoint))
                              (fun o => Ok (match o with Some s => l ++ [s] | None => l end))) (filter (fun c => n_tag c =? "source") ks) acc = Ok l ->
             map s_name l = map s_name acc ++ map (fun n => value_of n "name") (filter (yields addPoint) ks)).
  { clear. induction ks as [|k ks IH]; intros acc l H; cbn [filter] in *.
    - injection H as <-. now rewrite app_nil_r.
    - destruct (String.eqb_spec (n_tag k) "source") as [E|E].
      + cbn [mfold] in H. destruct (source_of _ _ _ _ _ _ _ k _) as [o| |] eqn:Es; try discriminate.
        apply source_of_name in Es; auto. cbn [obind] in H. apply IH in H. rewrite H. destruct (yields addPoint k), o as [s|]; try discriminate; [|reflexivity].
        cbn [option_map] in Es. injection Es as Es. rewrite map_app. cbn [map]. rewrite Es, <- app_assoc. reflexivity.
      + apply IH in H. rewrite H. assert (Y : yields addPoint k = false) by (unfold yields; destruct (String.eqb_spec (n_tag k) "source"); [contradiction|reflexivity]).
        now rewrite Y. }
  now apply G in H.
Qed.
End Reread.

(** ** Order of names *)
Lemma ascii_compare_lt a b : Ascii.compare a b = Lt <-> (N_of_ascii a < N_of_ascii b)%N.
Proof. unfold Ascii.compare. apply N.compare_lt_iff. Qed.
Lemma ltb_trans : forall a b c, String.ltb a b = true -> String.ltb b c = true -> String.ltb a c = true.
Proof.
  assert (G : forall a b c, String.compare a b = Lt -> String.compare b c = Lt -> String.compare a c = Lt).
  { induction a as [|x a IH]; intros [|y b] [|z c]; simpl; try congruence; auto.
    destruct (Ascii.compare x y) eqn:E1; destruct (Ascii.compare y z) eqn:E2; try discriminate; intros H1 H2.
    - apply Ascii.compare_eq_iff in E1, E2. subst. unfold Ascii.compare. rewrite N.compare_refl. eauto.
    - apply Ascii.compare_eq_iff in E1. subst. now rewrite E2.
    - apply Ascii.compare_eq_iff in E2. subst. now rewrite E1.
    - apply ascii_compare_lt in E1, E2. assert (E : Ascii.compare x z = Lt) by (apply ascii_compare_lt; eapply N.lt_trans; eassumption). now rewrite E. }
  unfold String.ltb. intros a b c H1 H2. specialize (G a b c). destruct (String.compare a b), (String.compare b c); try discriminate.
  now rewrite G.
Qed.

(** ** Flux *)
Lemma energy_eq emin emax i : (0 < emin)%R -> (0 < emax)%R ->
  Rpower 10 (log10 emin + INR i * ((log10 emax - log10 emin) / 100)) = energy emin emax 100 i.
Proof.
  intros H1 H2. assert (L : (0 < ln 10)%R) by (rewrite <- ln_1; apply ln_increasing; lra).
  unfold energy, Rpower, log10. rewrite <- (exp_ln emin H1) at 3. rewrite <- exp_plus. f_equal.
  unfold Rdiv at 6. rewrite ln_mult, ln_Rinv; try lra; [|now apply Rinv_0_lt_compat].
  replace (INR 100) with 100%R by (rewrite INR_IZR_INZ; reflexivity). field. lra.
Qed.
Lemma flux_ok emin emax f : (0 < emin)%R -> (0 < emax)%R ->
  flux emin emax (fun e => Some (f e)) = trapezoids (fun i => f (energy emin emax 100 i)) (energy emin emax 100) 100.
Proof.
  intros H1 H2. unfold flux. cbv zeta.
  set (g := fun (acc : option R) (i : nat) => _).
  assert (G : forall n, fold_left g (seq 0 n) (Some 0%R) =
              Some (trapezoids (fun i => f (energy emin emax 100 i)) (energy emin emax 100) n)).
  { induction n as [|n IH]; [reflexivity|]. rewrite seq_S, fold_left_app, IH. cbn [fold_left]. unfold g.
    rewrite !energy_eq by auto. cbn [Nat.add trapezoids]. f_equal. field. }
  rewrite G. reflexivity.
Qed.
Lemma flux_throws emin emax f i : (0 < emin)%R -> (0 < emax)%R -> i <= 100 ->
  f (energy emin emax 100 i) = None -> flux emin emax f = 1%R.
Proof.
  intros H1 H2 Hi Hf. unfold flux. cbv zeta.
  set (g := fun (acc : option R) (i : nat) => _).
  assert (N : forall l, fold_left g l None = None) by (induction l as [|x l IH]; [reflexivity|exact IH]).
  assert (G : forall l k, In k l -> (i = k \/ i = S k) -> forall acc, fold_left g l acc = None).
  { induction l as [|x l IH]; intros k Hk Hik acc; [destruct Hk|]. cbn [fold_left]. destruct Hk as [<-|Hk]; [|eauto].
    replace (g acc x) with (@None R); [apply N|]. unfold g. rewrite !energy_eq by auto.
    destruct acc; [|reflexivity]. destruct Hik as [<-|<-]; rewrite Hf; [reflexivity|]. now destruct (f (energy emin emax 100 x)). }
  destruct (Nat.eq_dec i 100) as [->|Hn].
  - rewrite (G _ 99); [reflexivity|apply in_seq; lia|auto].
  - rewrite (G _ i); [reflexivity|apply in_seq; lia|auto].
Qed.

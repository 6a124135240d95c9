(** Properties C73 and C173, continued: what hand-written files mean. *)
From Verif Require Import Base XmlText XmlModel XmlSpec XmlProofs XmlReread XmlProps XmlProps2.
From Coq Require Import String Ascii Reals.
Local Open Scope nat_scope.
Local Open Scope string_scope.
Local Open Scope list_scope.

Lemma attr_value n k : attr_or n k "" = value_of n k.
Proof. unfold attr_or, attr, value_of. destruct (find _ (n_attrs n)); reflexivity. Qed.

Definition is_off (n : node) (k : string) : bool := value_of n k =? "false".
Lemma flag_is n k b : apply_flag n k = Ok b -> b = negb (is_off n k).
Proof.
  unfold apply_flag, is_off. rewrite attr_value. destruct (value_of n k =? "false"); [now intros [= <-]|].
  destruct (_ || _); [now intros [= <-]|discriminate].
Qed.

Lemma edisp_is rd create readable lo hi n fe : read_spectrum rd create readable lo hi n = Ok fe -> snd fe = negb (is_off n "apply_edisp").
Proof.
  unfold read_spectrum. destruct (create _); [|discriminate]. cbv zeta.
  destruct (if attr_or n "type" "" =? "MultipleBPL" then _ else _); cbn [obind]; try discriminate.
  destruct (mfold _ _ _); cbn [obind]; try discriminate.
  destruct (writes_file _ && _); [discriminate|]. destruct (_ && _); [discriminate|].
  destruct (apply_flag n "apply_edisp") eqn:E; cbn [obind]; try discriminate. intros [= <-]. cbn. now apply flag_is.
Qed.

(** The three flags of a point or diffuse source are off exactly when their attributes say "false",
    independently of each other. *)
Theorem C73_flags_read :
  forall rd create readable lo hi require a spectrum spatial s,
  n_tag spectrum = "spectrum" -> n_tag spatial = "spatialModel" ->
  value_of (Node "source" a [spectrum; spatial]) "type" <> "CompositeSource" ->
  readXml rd create readable lo hi require true (Node "source_library" [] [Node "source" a [spectrum; spatial]]) [] = ([s], false) ->
  g_edisp (s_flags s) = negb (value_of spectrum "apply_edisp" =? "false") /\
  g_psf (s_flags s) = negb (value_of spatial "apply_psf" =? "false") /\
  g_expo (s_flags s) = negb (value_of spatial "apply_exposure" =? "false").
Proof.
  intros rd create readable lo hi require a spectrum spatial s T1 T2 NC. set (n := Node "source" a [spectrum; spatial]) in *.
  unfold readXml. intros E.
  assert (E1 : exists o, source_of rd create readable lo hi require true n
     (makeSources rd create readable lo hi (pred (height (Node "source_library" [] [n]))) require true) = Ok o /\ o = Some s).
  { cbn [height pred] in *. set (d := fold_right _ _ _) in *. cbn [makeSources children n_kids filter n_tag] in E.
    change ("source" =? "source") with true in E. unfold n at 1 in E. cbn [n_tag] in E. change ("source" =? "source") with true in E. cbv iota in E. fold n in E.
    cbn [mfold] in E. destruct (source_of rd create readable lo hi require true n _) as [o| |]; cbn [obind] in E.
    - exists o. split; [reflexivity|]. destruct o as [s'|]; cbn in E; [|discriminate]. now injection E as ->.
    - cbn in E. discriminate. - cbn in E. discriminate. }
  destruct E1 as (o & E1 & ->). clear E. unfold source_of in E1. rewrite attr_value in E1.
  assert (C1 : children n "spectrum" = [spectrum]) by (unfold children, n; cbn [n_kids filter]; rewrite T1, T2; reflexivity).
  assert (C2 : children n "spatialModel" = [spatial]) by (unfold children, n; cbn [n_kids filter]; rewrite T1, T2; reflexivity).
  rewrite C1, C2 in E1. apply String.eqb_neq in NC. cbv zeta in E1. rewrite NC in E1.
  assert (F : forall s0, obind (with_flags spatial s0) (fun s1 => Ok (Some (set_name (attr_or n "name" "") s1))) = Ok (Some s) ->
     g_edisp (s_flags s) = g_edisp (s_flags s0) /\ g_psf (s_flags s) = negb (is_off spatial "apply_psf") /\ g_expo (s_flags s) = negb (is_off spatial "apply_exposure")).
  { intros s0. unfold with_flags. destruct (apply_flag spatial "apply_psf") eqn:P; cbn [obind]; try discriminate.
    destruct (apply_flag spatial "apply_exposure") eqn:X; cbn [obind]; try discriminate. apply flag_is in P, X. subst.
    intros [= <-]. destruct s0; cbn; auto. }
  cbn [andb] in E1. destruct (value_of n "type" =? "PointSource").
  - destruct (makePointSource rd create readable lo hi require spectrum spatial) as [s0| |] eqn:M; cbn [obind] in E1; try discriminate.
    destruct (F s0 E1) as (A & B & C). split; [|now split]. rewrite A. unfold makePointSource in M. destruct (negb _); [discriminate|].
    destruct (read_position rd spatial). destruct (read_spectrum _ _ _ _ _ spectrum) eqn:R; cbn [obind] in M; try discriminate. injection M as <-. cbn. eapply edisp_is; eauto.
  - destruct (value_of n "type" =? "DiffuseSource"); [|discriminate].
    destruct (makeDiffuseSource rd create readable lo hi require spectrum spatial) as [s0| |] eqn:M; cbn [obind] in E1; try discriminate.
    destruct (F s0 E1) as (A & B & C). split; [|now split]. rewrite A. unfold makeDiffuseSource in M. destruct (create _); [|discriminate].
    destruct (mfold _ _ _); cbn [obind] in M; try discriminate. destruct (_ && _); [discriminate|]. cbv zeta in M.
    destruct (read_spectrum _ _ _ _ _ spectrum) eqn:R; cbn [obind] in M; try discriminate. injection M as <-. cbn. eapply edisp_is; eauto.
Qed.
Print Assumptions C73_flags_read.

(** A coordinate that is no number puts the source at 0 without an error. *)
Theorem C73_coordinate_refuted :
  forall rd lo hi v x, rd v = None -> v <> "" -> rd "12" = Some x ->
  readXml rd case_create case_readable lo hi true true
    (Node "source_library" [] [Node "source" [("name", "A"); ("type", "PointSource")]
       [Node "spectrum" [("type", "ConstantValue")] [];
        Node "spatialModel" [("type", "SkyDirFunction")]
          [Node "parameter" [("name", "RA"); ("value", v)] []; Node "parameter" [("name", "DEC"); ("value", "12")] []]]]) []
  = ([Point "A" flat (mk_flags true true true true) 0 x], false).
Proof.
  intros rd lo hi v x Hv Hn Hx.
  assert (P : read_position rd (Node "spatialModel" [("type", "SkyDirFunction")]
          [Node "parameter" [("name", "RA"); ("value", v)] []; Node "parameter" [("name", "DEC"); ("value", "12")] []]) = (0%R, x)).
  { set (ra := Node "parameter" [("name", "RA"); ("value", v)] []). set (dec := Node "parameter" [("name", "DEC"); ("value", "12")] []).
    assert (A : attr_double rd ra "value" 0 = 0%R).
    { unfold attr_double. change (attr_or ra "value" "") with v. apply String.eqb_neq in Hn. cbv zeta. now rewrite Hn, Hv. }
    assert (B : attr_double rd dec "value" 0 = x).
    { unfold attr_double. change (attr_or dec "value" "") with "12". cbv zeta. change ("12" =? "") with false. cbv iota. now rewrite Hx. }
    transitivity (attr_double rd ra "value" 0, attr_double rd dec "value" 0); [reflexivity|]. now rewrite A, B. }
  unfold readXml. cbn - [read_position]. unfold source_of. cbn - [read_position]. unfold makePointSource. cbn - [read_position]. rewrite P. reflexivity.
Qed.
Print Assumptions C73_coordinate_refuted.

Example C73_case_flags :
  forall rd lo hi, exists s, readXml rd case_create case_readable lo hi true true
    (Node "source_library" [] [Node "source" [("name", "A"); ("type", "PointSource")]
       [Node "spectrum" [("type", "ConstantValue"); ("apply_edisp", "false")] [];
        Node "spatialModel" [("type", "SkyDirFunction"); ("apply_exposure", "false")] []]]) [] = ([s], false) /\
    s_flags s = mk_flags false true false true.
Proof. intros. eexists. split; reflexivity. Qed.

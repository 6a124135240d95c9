(** Source models in XML files. *)
From Verif Require Import Base AccumModel AccumProofs XmlText XmlModel XmlSpec XmlTextProofs XmlProofs XmlReread.
From Coq Require Import String Ascii Reals Lra Sorted Permutation DecimalString DecimalZ.
Local Open Scope nat_scope.
Local Open Scope string_scope.
Local Open Scope list_scope.

(** ** Text *)

(** A document without quotes and ampersands in its values is read back exactly. *)
Theorem C73_text n : plain n -> parse (write n) = Some [n].
Proof. apply parse_write. Qed.

Section Props.
Variables (wr : R -> string) (rd : string -> option R) (rnd : R -> R).
Variable create : string -> option func.
Variable readable : string -> bool.
Variables lo hi : R.

(** ** Round trip *)

(** Writing a model and reading the file into an empty model gives every source back: names, kinds,
    members, functions, files, parameters and positions, each number rounded once. *)
Theorem C73_roundtrip require fl t m :
  decimals wr rd rnd -> text_ok fl -> text_ok t -> sorted_names m ->
  List.Forall (expressible rnd create readable) m ->
  readFile rd create readable lo hi require true (writeXml wr fl t m) [] = (map (stored rnd require) m, false).
Proof.
  intros Hd H1 H2 H3 H4. rewrite (readFile_written wr rd rnd) by auto. now apply readXml_written.
Qed.

(** Writing the model that was read gives the same bytes. *)
Theorem C73_stable require fl t m m' :
  decimals wr rd rnd -> (forall x, wr (rnd x) = wr x) -> text_ok fl -> text_ok t -> sorted_names m ->
  List.Forall (expressible rnd create readable) m ->
  readFile rd create readable lo hi require true (writeXml wr fl t m) [] = (m', false) ->
  writeXml wr fl t m' = writeXml wr fl t m.
Proof.
  intros Hd Hi H1 H2 H3 H4 H. rewrite C73_roundtrip in H by auto. apply (f_equal fst) in H. cbn [fst] in H. subst m'.
  unfold writeXml, library_node. rewrite map_map. f_equal. f_equal. apply map_ext. intros s. now apply node_stored.
Qed.

(** Reading a file again sets, in every source of the model that the file names, the parameters of the
    file, and leaves every other source alone. *)
Theorem C73_reread separation fl t m m' :
  decimals wr rd rnd -> text_ok fl -> text_ok t -> List.Forall writable m ->
  NoDup (map s_name m) -> NoDup (map s_name m') ->
  (forall s s', In s m -> In s' m' -> s_name s = s_name s' -> restorable s s') ->
  reReadFile rd lo hi separation (writeXml wr fl t m) m' =
  (map (fun s' => match find (fun s => s_name s =? s_name s') m with
                  | Some s => restored rnd separation s s'
                  | None => s'
                  end) m', false).
Proof.
  intros Hd H1 H2 H3 H4 H5 H6. rewrite (reReadFile_plain wr rd rnd) by auto. now apply reread_all_ok.
Qed.

(** ** Any file *)

(** Reading a file never removes or changes a source that was in the model, and keeps the order of
    the names, whether it succeeds or not. *)
Theorem C73_keeps require addPoint library m m' b :
  sorted_names m -> readXml rd create readable lo hi require addPoint library m = (m', b) ->
  sorted_names m' /\ incl m m'.
Proof.
  intros Hs H. unfold readXml in H. destruct (obind _ _) as [l| |].
  - split.
    + replace m' with (fst (add_until l m)) by now rewrite H. apply add_until_sorted; auto. exact ltb_trans.
    + apply add_until_perm in H as (a & _ & H & _). intros x Hx. apply (Permutation_in x H). apply in_or_app. now left.
  - injection H as <- <-. split; [auto|apply incl_refl].
  - injection H as <- <-. split; [auto|apply incl_refl].
Qed.

(** A reading that succeeds adds exactly the sources the file names: each composite and diffuse
    source, and each point source if point sources are asked for. *)
Theorem C73_names require addPoint library m m' :
  readXml rd create readable lo hi require addPoint library m = (m', false) ->
  Permutation (map s_name m') (map s_name m ++ names_in addPoint library).
Proof.
  intros H. unfold readXml in H.
  destruct (makeSources rd create readable lo hi (height library) require addPoint library) as [l| |] eqn:E; try discriminate.
  cbn [obind] in H. destruct (add_sources l []) as [r| |] eqn:Ea; try discriminate.
  apply add_sources_perm in Ea. cbn [app] in Ea. apply makeSources_names in E. rewrite <- E.
  apply add_until_perm in H as (a & _ & H & Ha). rewrite Ha in H by auto.
  rewrite <- map_app. apply Permutation_map. rewrite <- H. now apply Permutation_app_head.
Qed.

(** A file that names a source twice is refused and leaves the model as it was. *)
Theorem C73_duplicate require addPoint library m :
  ~ NoDup (names_in addPoint library) ->
  readXml rd create readable lo hi require addPoint library m = (m, true).
Proof.
  intros H. unfold readXml.
  destruct (makeSources rd create readable lo hi (height library) require addPoint library) as [l| |] eqn:E; try reflexivity.
  cbn [obind]. destruct (add_sources l []) as [r| |] eqn:Ea; try reflexivity. exfalso. apply H.
  apply makeSources_names in E. rewrite <- E.
  assert (Hs : sorted_names r).
  { apply add_until_ok in Ea. replace r with (fst (add_until l [])) by now rewrite Ea. apply add_until_sorted; [exact ltb_trans|constructor]. }
  apply add_sources_perm in Ea. cbn [app] in Ea. apply (Permutation_map s_name) in Ea.
  apply (Permutation_NoDup (Permutation_sym Ea)). clear -Hs. unfold sorted_names in Hs.
  induction Hs as [|x l Hs IH Hx]; constructor; auto. intros Hi. rewrite Forall_forall in Hx. specialize (Hx x Hi).
  apply ltb_neq in Hx. rewrite String.eqb_refl in Hx. discriminate.
Qed.

(** A source element without exactly one spectrum makes the whole file fail, and leaves the model as
    it was; so does text that is not a document. *)
Theorem C73_no_spectrum require addPoint library n m :
  In n (n_kids library) -> n_tag n = "source" ->
  List.length (filter (fun c => n_tag c =? "spectrum") (n_kids n)) <> 1 ->
  readXml rd create readable lo hi require addPoint library m = (m, true).
Proof.
  intros Hi Ht Hn. unfold readXml.
  assert (G : forall d l, makeSources rd create readable lo hi d require addPoint library <> Ok l).
  { intros [|d] l; [discriminate|]. cbn [makeSources].
    assert (Hc : In n (children library "source")) by (unfold children; apply filter_In; rewrite Ht; auto).
    assert (K : forall ks acc, In n ks ->
      mfold (fun l n => obind (source_of rd create readable lo hi require addPoint n (makeSources rd create readable lo hi d require addPoint))
                          (fun o => Ok (match o with Some s => l ++ [s] | None => l end))) ks acc <> Ok l).
    { induction ks as [|k ks IH]; intros acc Hk H; [destruct Hk|]. cbn [mfold] in H. destruct Hk as [->|Hk].
      - replace (source_of rd create readable lo hi require addPoint n (makeSources rd create readable lo hi d require addPoint)) with (@Throw (option source)) in H; [discriminate|].
        unfold source_of, children. destruct (filter (fun c => n_tag c =? "spectrum") (n_kids n)) as [|a [|b k]]; try reflexivity. simpl in Hn. congruence.
      - destruct (source_of rd create readable lo hi require addPoint k _); try discriminate. cbn [obind] in H. exact (IH _ Hk H). }
    now apply K. }
  destruct (makeSources rd create readable lo hi (height library) require addPoint library) as [l| |] eqn:E; try reflexivity.
  exfalso. eapply G; eauto.
Qed.
Theorem C73_no_document separation require addPoint text m :
  parse text = None ->
  readFile rd create readable lo hi require addPoint text m = (m, true) /\ reReadFile rd lo hi separation text m = (m, true).
Proof. intros H. unfold readFile, reReadFile. now rewrite H. Qed.

(** ** Files for flux simulations *)

(** The file holds one element per source, with its name, its flux between the two energies (100
    trapezoids over energies that grow by a constant factor; 1 if the spectrum cannot be evaluated)
    and, for a point source, its position. *)
Theorem C73_flux emin emax f :
  (0 < emin)%R -> (0 < emax)%R ->
  flux emin emax (fun e => Some (f e)) = trapezoids (fun i => f (energy emin emax 100 i)) (energy emin emax 100) 100.
Proof. apply flux_ok. Qed.
Theorem C73_flux_fails emin emax f i :
  (0 < emin)%R -> (0 < emax)%R -> i <= 100 -> f (energy emin emax 100 i) = None -> flux emin emax f = 1%R.
Proof. apply flux_throws. Qed.
Theorem C73_flux_file emin emax eval m :
  decimals wr rd rnd -> List.Forall (fun s => text_ok (s_name s)) m ->
  exists lib, parse (write_fluxXml wr emin emax eval m) = Some [lib] /\
    map (fun n => (value_of n "name", rd (value_of n "flux"),
                   map (fun d => (rd (value_of d "ra"), rd (value_of d "dec"))) (filter (fun c => n_tag c =? "celestial_dir") (n_kids n))))
        (n_kids lib) =
    map (fun s => (s_name s, Some (rnd (flux emin emax (eval (s_spec s)))),
                   match s with Point _ _ _ ra dec => [(Some (rnd ra), Some (rnd dec))] | _ => [] end)) m.
Proof.
  intros Hd Hm. eexists. split.
  - unfold write_fluxXml. apply parse_write. apply plain_node. split; [split; [discriminate|reflexivity]|]. split.
    { constructor; [|constructor]. split; [split; [discriminate|reflexivity]|reflexivity]. }
    apply Forall_map. eapply Forall_impl; [|exact Hm]. intros s Hs. unfold flux_source.
    assert (NK : forall a b, a <> "" -> all_chars name_char a = true -> name_ok a /\ text_ok (wr b)).
    { intros a b Ha Hb. split; [split; auto|apply (d_text _ _ _ Hd)]. }
    apply plain_node. split; [split; [discriminate|reflexivity]|]. split.
    { repeat (constructor; [try (split; [split; [discriminate|reflexivity]|auto]); try apply (d_text _ _ _ Hd)|]). constructor. }
    constructor.
    { apply plain_node. split; [split; [discriminate|reflexivity]|]. split.
      - repeat (constructor; [split; [split; [discriminate|reflexivity]|reflexivity]|]). constructor.
      - repeat (constructor; [apply plain_node; split; [split; [discriminate|reflexivity]|]; split; [|constructor];
                 constructor; [split; [split; [discriminate|reflexivity]|reflexivity]|];
                 constructor; [split; [split; [discriminate|reflexivity]|apply (d_text _ _ _ Hd)]|]; constructor|]). constructor. }
    destruct s; [|constructor|constructor]. constructor; [|constructor].
    apply plain_node. split; [split; [discriminate|reflexivity]|]. split; [|constructor].
    repeat (constructor; [split; [split; [discriminate|reflexivity]|apply (d_text _ _ _ Hd)]|]). constructor.
  - cbn [n_kids]. rewrite map_map. apply map_ext. intros s. unfold flux_source, value_of.
    cbn [n_attrs n_kids find fst snd String.eqb Ascii.eqb Bool.eqb filter n_tag]. rewrite (d_back _ _ _ Hd).
    destruct s; cbn [map filter n_tag n_attrs find fst snd String.eqb Ascii.eqb Bool.eqb]; rewrite ?(d_back _ _ _ Hd); reflexivity.
Qed.
End Props.

(** Every function registered by this package, but one, can be looked up by the name written to the
    file, and no two have the same key. *)
Theorem C73_registry :
  NoDup (map fst registry) /\
  forall key generic, In (key, generic) registry -> generic <> "MultipleBPL" -> In (generic, generic) registry /\ key = generic.
Proof.
  split.
  - assert (G : forall l, (fix go (l : list string) := match l with [] => true | x :: l => negb (existsb (String.eqb x) l) && go l end) l = true -> NoDup l).
    { induction l as [|x l IH]; intros H; constructor; apply andb_true_iff in H as [H1 H2]; auto.
      intros Hi. apply existsb_in in Hi. rewrite Hi in H1. discriminate. }
    apply G. vm_compute. reflexivity.
  - assert (G : forallb (fun x => (fst x =? snd x) || (snd x =? "MultipleBPL")) registry = true) by (vm_compute; reflexivity).
    intros k g Hi Hg. rewrite forallb_forall in G. specialize (G _ Hi). cbn [fst snd] in G.
    destruct (String.eqb_spec k g) as [->|E]; [auto|]. destruct (String.eqb_spec g "MultipleBPL"); [contradiction|discriminate].
Qed.

Print Assumptions C73_text.
Print Assumptions C73_roundtrip.
Print Assumptions C73_stable.
Print Assumptions C73_reread.
Print Assumptions C73_keeps.
Print Assumptions C73_names.
Print Assumptions C73_duplicate.
Print Assumptions C73_no_spectrum.
Print Assumptions C73_no_document.
Print Assumptions C73_flux.
Print Assumptions C73_flux_fails.
Print Assumptions C73_flux_file.
Print Assumptions C73_registry.

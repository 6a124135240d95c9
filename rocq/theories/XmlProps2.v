(** Source models in XML files: a concrete case, and what does not survive. *)
From Verif Require Import Base AccumModel AccumProofs XmlText XmlModel XmlSpec XmlTextProofs XmlProofs XmlReread XmlProps.
From Coq Require Import String Ascii Reals Lra Sorted Permutation DecimalString DecimalZ ZArith.
Local Open Scope nat_scope.
Local Open Scope string_scope.
Local Open Scope list_scope.

(** ** A concrete way to write numbers: whole numbers, rounded down *)
Definition case_rnd (x : R) : R := IZR (Int_part x).
Definition case_wr (x : R) : string := NilZero.string_of_int (Z.to_int (Int_part x)).
Definition case_rd (s : string) : option R := option_map (fun d => IZR (Z.of_int d)) (NilZero.int_of_string s).

Lemma uint_text d : text_ok (NilEmpty.string_of_uint d).
Proof. unfold text_ok. induction d; [reflexivity|..]; simpl; exact IHd. Qed.
Lemma zero_text d : text_ok (NilZero.string_of_uint d) /\ NilZero.string_of_uint d <> "".
Proof. split; [|destruct d; discriminate]. destruct d; try apply uint_text. reflexivity. Qed.
Lemma int_part_mono x y : (x <= y)%R -> (Int_part x <= Int_part y)%Z.
Proof.
  intros H. destruct (base_Int_part x) as [A1 A2], (base_Int_part y) as [B1 B2].
  assert (IZR (Int_part x) < IZR (Int_part y + 1))%R by (rewrite plus_IZR; lra). apply lt_IZR in H0. lia.
Qed.
Lemma case_decimals : decimals case_wr case_rd case_rnd.
Proof.
  constructor.
  - intros x. unfold case_rd, case_wr, case_rnd. rewrite NilZero.isi.
    + cbn [option_map]. now rewrite DecimalZ.of_to.
    + destruct (Int_part x); try discriminate. simpl. intros E. injection E as E. now apply DecimalPos.Unsigned.to_uint_nonnil in E.
    + destruct (Int_part x); try discriminate. simpl. intros E. injection E as E. now apply DecimalPos.Unsigned.to_uint_nonnil in E.
  - intros x. unfold case_wr. destruct (Z.to_int (Int_part x)) as [u|u]; cbn [NilZero.string_of_int]; [apply zero_text|].
    split; [|discriminate]. destruct (zero_text u) as [H _]. unfold text_ok in *. simpl. exact H.
  - intros x y H. apply IZR_le. now apply int_part_mono.
Qed.
Lemma int_part_whole z : Int_part (IZR z) = z.
Proof.
  destruct (base_Int_part (IZR z)) as [A B].
  apply le_IZR in A. assert (IZR z < IZR (Int_part (IZR z) + 1))%R by (rewrite plus_IZR; lra). apply lt_IZR in H. lia.
Qed.
Lemma case_stable x : case_wr (case_rnd x) = case_wr x.
Proof. unfold case_wr, case_rnd. now rewrite int_part_whole. Qed.

(** ** A model of a composite, a diffuse and a point source *)
Definition P1 (n : string) (v : R) : param := mk_param n v 1 (-100) 100 true.
Definition case_power : func := mk_func "PowerLaw" [P1 "Prefactor" 5; P1 "Index" (-2); P1 "Scale" 100] "" "" [].
Definition case_pieces : func :=
  mk_func "PiecewisePowerLaw" [P1 "IndexL" (-2); P1 "IndexH" (-3); P1 "dNdE0" 7; P1 "dNdE1" 3; P1 "Energy0" 10; P1 "Energy1" 20] "" "" [10; 20]%R.
Definition case_table : func := mk_func "FileFunction" [P1 "Normalization" 1] "table.txt" "scale.txt" [].
Definition case_map : func := mk_func "SpatialMap" [P1 "Prefactor" 1] "map.fits" "" [].
Definition on : flags := mk_flags true true true true.
Definition case_model : list source :=
  [Composite "C" case_power on [Point "C1" case_pieces on 10 20];
   Diffuse "D" case_table on case_map true;
   Point "P" case_power on 83 22].
Definition case_create (t : string) : option func :=
  if t =? "PowerLaw" then Some case_power
  else if t =? "PiecewisePowerLaw" then Some (mk_func t [] "" "" [])
  else if t =? "FileFunction" then Some (mk_func t [P1 "Normalization" 1] "" "" [])
  else if t =? "SpatialMap" then Some (mk_func t [P1 "Prefactor" 1] "" "" [])
  else if t =? "ConstantValue" then Some (mk_func t [] "" "" [])
  else None.
Definition case_readable (f : string) : bool := existsb (String.eqb f) ["table.txt"; "scale.txt"; "map.fits"].

Lemma nodup_strings l : (fix go (l : list string) := match l with [] => true | x :: l => negb (existsb (String.eqb x) l) && go l end) l = true -> NoDup l.
Proof.
  induction l as [|x l IH]; intros H; constructor; apply andb_true_iff in H as [H1 H2]; auto.
  intros Hi. apply existsb_in in Hi. rewrite Hi in H1. discriminate.
Qed.
Lemma p1_ok n v : text_ok n -> (-100 <= v <= 100)%R -> param_ok (P1 n v).
Proof. intros H1 H2. split; [exact H2|exact H1]. Qed.
Ltac ptext := split; [reflexivity|split; [reflexivity|split; [reflexivity|]]]; repeat (constructor; [apply p1_ok; [reflexivity|lra]|]); constructor.
Ltac ndup := apply nodup_strings; vm_compute; reflexivity.

Lemma power_ok : spectrum_ok case_rnd case_create case_readable case_power.
Proof.
  split; [ptext|]. split; [|intros H; now contradiction H]. split; [ndup|]. exists case_power.
  split; [reflexivity|]. split; [repeat split|]. split; [reflexivity|]. split; [|reflexivity]. simpl. intuition discriminate.
Qed.
Lemma table_ok : spectrum_ok case_rnd case_create case_readable case_table.
Proof.
  split; [ptext|]. split; [|reflexivity]. split; [ndup|]. eexists.
  split; [reflexivity|]. split; [repeat split|]. split; [reflexivity|]. split; [reflexivity|]. simpl. intuition.
Qed.
Lemma map_ok : spatial_ok case_create case_readable case_map.
Proof.
  split; [ptext|]. split; [|split; [reflexivity|simpl; intuition discriminate]]. split; [ndup|]. eexists.
  split; [reflexivity|]. split; [repeat split|]. split; [reflexivity|]. split; [reflexivity|]. simpl. intuition.
Qed.
Lemma pieces_ok : spectrum_ok case_rnd case_create case_readable case_pieces.
Proof.
  split; [ptext|]. split; [|intros H; now contradiction H]. split; [ndup|]. eexists.
  split; [reflexivity|]. split; [|split; [reflexivity|split; [simpl; intuition discriminate|reflexivity]]].
  change (has_list (f_type case_pieces)) with true. cbv iota. split; [reflexivity|]. split; [reflexivity|]. split; [|exists 2; reflexivity].
  cbv -[IZR case_rnd Rmult Rlt]. split; [|exact I]. unfold case_rnd. rewrite !int_part_whole. lra.
Qed.
Lemma case_expressible : List.Forall (expressible case_rnd case_create case_readable) case_model.
Proof.
  constructor; [|constructor; [|constructor; [|constructor]]].
  - split; [reflexivity|]. split; [exact power_ok|]. split; [repeat constructor|]. split; [|exact I].
    split; [reflexivity|]. split; [exact pieces_ok|exact I].
  - split; [reflexivity|]. split; [exact table_ok|]. split; [exact map_ok|]. simpl. auto.
  - split; [reflexivity|]. split; [exact power_ok|exact I].
Qed.

(** The hypotheses of the round trip hold of this model. *)
Example C73_case :
  decimals case_wr case_rd case_rnd /\ (forall x, case_wr (case_rnd x) = case_wr x) /\
  sorted_names case_model /\ List.Forall (expressible case_rnd case_create case_readable) case_model /\
  List.Forall writable case_model /\ NoDup (map s_name case_model) /\
  (forall s s', In s (tl case_model) -> In s' case_model -> s_name s = s_name s' -> restorable s s').
Proof.
  split; [exact case_decimals|]. split; [exact case_stable|]. split; [repeat constructor|]. split; [exact case_expressible|].
  split; [eapply Forall_impl; [|exact case_expressible]; intros s; apply expressible_writable|].
  split; [ndup|]. simpl. intros s s' [<-|[<-|[]]] [<-|[<-|[<-|[]]]]; simpl; try discriminate; intros _; repeat split.
Qed.
Example C73_case_read : forall lo hi,
  fst (readFile case_rd case_create case_readable lo hi true true (writeXml case_wr "" "t" case_model) []) <> [] /\
  readFile case_rd case_create case_readable lo hi true true (writeXml case_wr "" "t" case_model) [] = (map (stored case_rnd true) case_model, false).
Proof.
  intros lo hi. assert (E : readFile case_rd case_create case_readable lo hi true true (writeXml case_wr "" "t" case_model) [] = (map (stored case_rnd true) case_model, false)).
  { apply C73_roundtrip; try reflexivity; [exact case_decimals|repeat constructor|exact case_expressible]. }
  rewrite E. split; [discriminate|reflexivity].
Qed.

(** ** What does not survive *)
Definition flat : func := mk_func "ConstantValue" [] "" "" [].
Definition flat_source (n : string) (g : flags) : source := Diffuse n flat g flat false.
Definition flat_node (n t : string) : node :=
  Node "source" [("name", n); ("type", t)]
    [Node "spectrum" [("type", "ConstantValue")] []; Node "spatialModel" [("type", "ConstantValue")] []].

(** The flags that switch off energy dispersion, point spread function and exposure are not written:
    they come back on. *)
Theorem C73_flags_refuted wr rd lo hi :
  let off := mk_flags false false false false in
  readFile rd case_create case_readable lo hi true true (writeXml wr "" "t" [flat_source "A" off]) []
  = ([flat_source "A" (mk_flags true true true true)], false).
Proof. vm_compute. reflexivity. Qed.

(** Text is not escaped: a source whose name has a quote is written to a file that cannot be read, and
    one whose name has an entity comes back under another name. *)
Theorem C73_escape_refuted wr rd lo hi m :
  readFile rd case_create case_readable lo hi true true
    (writeXml wr "" "t" [flat_source ("A" +++ String "034" "B") (mk_flags true true true true)]) m = (m, true) /\
  map s_name (fst (readFile rd case_create case_readable lo hi true true
    (writeXml wr "" "t" [flat_source "A&amp;B" (mk_flags true true true true)]) [])) = ["A&B"].
Proof. split; vm_compute; reflexivity. Qed.

(** The broken power law with many breaks is registered under a name that is neither the one it writes
    nor the one the reader handles: no file with either name is read. *)
Theorem C73_multiple_refuted :
  In ("MultipleBrokenPowerLaw", "MultipleBPL") registry /\ ~ In "MultipleBPL" (map fst registry) /\
  forall wr rd create readable lo hi f,
    create "MultipleBPL" = None -> f_type f = "MultipleBPL" ->
    read_spectrum rd create readable lo hi (spectral_node wr f) = Throw /\
    (forall proto p ps, create "MultipleBrokenPowerLaw" = Some proto -> f_params proto = [] -> f_params f = p :: ps ->
       read_spectrum rd create readable lo hi
         (Node "spectrum" [("type", "MultipleBrokenPowerLaw")] (map (param_node wr) (f_params f))) = Throw).
Proof.
  split; [vm_compute; tauto|]. split; [rewrite <- existsb_in; vm_compute; discriminate|].
  intros wr rd create readable lo hi f Hc Hf. split.
  - unfold read_spectrum. rewrite attr_type, Hf, Hc. reflexivity.
  - intros proto p ps Hp Hn Hps. unfold read_spectrum.
    change (attr_or (Node "spectrum" [("type", "MultipleBrokenPowerLaw")] _) "type" "") with "MultipleBrokenPowerLaw".
    rewrite Hp. cbn [String.eqb Ascii.eqb Bool.eqb obind]. rewrite children_params, Hn, Hps. reflexivity.
Qed.

(** A model with a composite source cannot be read again from its own file. *)
Theorem C73_composite_refuted wr rd rnd lo hi separation fl t m c :
  decimals wr rd rnd -> text_ok fl -> text_ok t -> List.Forall writable m ->
  In c m -> (exists n f g l, c = Composite n f g l) ->
  snd (reReadFile rd lo hi separation (writeXml wr fl t m) m) = true.
Proof.
  intros Hd H1 H2 H3 Hi Hc. rewrite (reReadFile_plain wr rd rnd) by auto.
  eapply reread_all_composite; eauto. now apply in_map.
Qed.

(** The failure comes after other sources were changed. *)
Theorem C73_half_refuted wr rd rnd lo hi separation a a' c :
  decimals wr rd rnd -> writable a -> writable c -> restorable a a' -> s_name a = s_name a' -> s_name a <> s_name c ->
  (exists n f g l, c = Composite n f g l) ->
  exists c', reReadFile rd lo hi separation (writeXml wr "" "t" [a; c]) [a'; c] = ([restored rnd separation a a'; c'], true).
Proof.
  intros Hd Ha Hc Hr Hn Hd' (n & f & g & l & ->). rewrite (reReadFile_plain wr rd rnd) by (auto; reflexivity).
  cbn [map reread_all]. assert (E : attr (source_node wr a) "name" = Some (s_name a)) by (destruct a; reflexivity). rewrite E.
  cbn [update_named]. rewrite <- Hn, String.eqb_refl, (reread_source_ok wr rd rnd) by auto.
  change (attr (source_node wr (Composite n f g l)) "name") with (Some n). cbn [update_named].
  rewrite restored_name. cbn [s_name] in *. destruct (String.eqb_spec (s_name a') n) as [E'|E']; [congruence|].
  rewrite String.eqb_refl. pose proof (reread_composite wr rd lo hi separation n f g l (Composite n f g l)) as T.
  destruct (reread_source _ _ _ _ _ _) as [c' b]. cbn [snd] in T. subst b. exists c'. reflexivity.
Qed.

(** A position that moved by at most a ten-thousandth of a radian is not restored. *)
Theorem C73_position_refuted wr rd rnd lo hi (separation : R * R -> R * R -> R) n f g ra dec ra' dec' :
  decimals wr rd rnd -> text_ok n -> func_text f ->
  (separation (rnd ra, rnd dec) (ra', dec') <= 1 / 10000)%R ->
  exists f', reReadFile rd lo hi separation (writeXml wr "" "t" [Point n f g ra dec]) [Point n f g ra' dec']
             = ([Point n f' g ra' dec'], false).
Proof.
  intros Hd H1 H2 H3. rewrite (C73_reread wr rd rnd).
  2: exact Hd. 2,3: reflexivity. 2: (constructor; [|constructor]; split; [exact H1|split; [exact H2|exact I]]).
  2,3: (constructor; [intros []|constructor]). 2: (intros s s' [<-|[]] [<-|[]] _; split; [reflexivity|exact I]).
  cbn [map find s_name]. rewrite String.eqb_refl. cbn [restored]. destruct (Rlt_dec _ _); [lra|]. eexists. reflexivity.
Qed.

(** A point source without a position is put at (0, 0), without an error. *)
Theorem C73_no_position_refuted rd lo hi m :
  m = [] ->
  readXml rd case_create case_readable lo hi true true
    (Node "source_library" [] [Node "source" [("name", "A"); ("type", "PointSource")]
       [Node "spectrum" [("type", "ConstantValue")] []; Node "spatialModel" [("type", "SkyDirFunction")] []]]) m
  = ([Point "A" flat (mk_flags true true true true) 0 0], false).
Proof. intros ->. vm_compute. reflexivity. Qed.

(** Reading again sets the energy parameters of a piecewise power law but not the energies it uses. *)
Theorem C73_knots_refuted lo hi separation :
  exists s s' r, reReadFile case_rd lo hi separation (writeXml case_wr "" "t" [s]) [s'] = ([r], false) /\
    f_knots (s_spec s') = true_knots (s_spec s') /\ f_type (s_spec r) = "PiecewisePowerLaw" /\
    f_knots (s_spec r) <> true_knots (s_spec r).
Proof.
  set (old := mk_func "PiecewisePowerLaw" [P1 "IndexL" (-2); P1 "IndexH" (-3); P1 "dNdE0" 7; P1 "Energy0" 10] "" "" [10]%R).
  set (new := mk_func "PiecewisePowerLaw" [P1 "IndexL" (-2); P1 "IndexH" (-3); P1 "dNdE0" 7; P1 "Energy0" 30] "" "" [30]%R).
  exists (Diffuse "A" new on flat false), (Diffuse "A" old on flat false). eexists.
  split.
  - rewrite (C73_reread case_wr case_rd case_rnd); [reflexivity|exact case_decimals|reflexivity|reflexivity|..].
    + constructor; [|constructor]. split; [reflexivity|]. split; [ptext|]. split; [reflexivity|split; [reflexivity|split; [reflexivity|constructor]]].
    + repeat constructor. simpl. tauto.
    + repeat constructor. simpl. tauto.
    + intros s s' [<-|[]] [<-|[]] _. split; reflexivity.
  - cbn [s_spec restored take_params f_knots f_type]. split; [|split; [reflexivity|]].
    + unfold true_knots. cbn. f_equal. lra.
    + unfold true_knots. cbn. unfold case_rnd. rewrite !int_part_whole. intros E. injection E as E. lra.
Qed.

(** A point source computes its exposure although the caller asked for none. *)
Theorem C73_exposure_refuted wr rd rnd create readable lo hi n f g ra dec :
  decimals wr rd rnd -> expressible rnd create readable (Point n f g ra dec) ->
  exists s, readFile rd create readable lo hi false true (writeXml wr "" "t" [Point n f g ra dec]) [] = ([s], false) /\
    g_computed (s_flags s) = true.
Proof.
  intros Hd H. eexists. split.
  - rewrite (C73_roundtrip wr rd rnd); [reflexivity|exact Hd|reflexivity|reflexivity|repeat constructor|constructor; [exact H|constructor]].
  - reflexivity.
Qed.

(** Reading a file into a model that has one of its sources fails after adding the earlier ones. *)
Theorem C73_atomic_refuted rd lo hi :
  let b := flat_source "B" (mk_flags true true true true) in
  exists a, readXml rd case_create case_readable lo hi true true
    (Node "source_library" [] [flat_node "A" "DiffuseSource"; flat_node "B" "DiffuseSource"]) [b] = ([a; b], true).
Proof. eexists. vm_compute. reflexivity. Qed.

(** A source of an unknown type is left out without an error. *)
Theorem C73_type_refuted rd lo hi m :
  readXml rd case_create case_readable lo hi true true
    (Node "source_library" [] [flat_node "A" "diffuseSource"]) m = (m, false).
Proof. vm_compute. reflexivity. Qed.

(** The file for flux simulations does not hold the spectrum nor the shape of a source: any two diffuse
    sources of the same name and flux give the same bytes, a power law of index 2. *)
Theorem C73_flux_refuted wr emin emax eval n f f' g g' sp sp' mb mb' :
  flux emin emax (eval f) = flux emin emax (eval f') ->
  write_fluxXml wr emin emax eval [Diffuse n f g sp mb] = write_fluxXml wr emin emax eval [Diffuse n f' g' sp' mb'].
Proof. intros H. unfold write_fluxXml. cbn [map]. unfold flux_source. cbn [s_name s_spec]. now rewrite H. Qed.

Print Assumptions C73_flags_refuted.
Print Assumptions C73_escape_refuted.
Print Assumptions C73_multiple_refuted.
Print Assumptions C73_composite_refuted.
Print Assumptions C73_half_refuted.
Print Assumptions C73_position_refuted.
Print Assumptions C73_no_position_refuted.
Print Assumptions C73_knots_refuted.
Print Assumptions C73_exposure_refuted.
Print Assumptions C73_atomic_refuted.
Print Assumptions C73_type_refuted.
Print Assumptions C73_flux_refuted.

(** Reading back what was written. *)
From Verif Require Import Base AccumModel AccumProofs XmlText XmlModel XmlSpec XmlTextProofs.
From Coq Require Import String Ascii Reals Lra Sorted DecimalString DecimalNat.
Local Open Scope nat_scope.
Local Open Scope string_scope.
Local Open Scope list_scope.

Lemma writable_all l :
  (fix all (l : list source) : Prop := match l with [] => True | s :: l => writable s /\ all l end) l
  <-> List.Forall writable l.
Proof.
  induction l as [|s l IH]; [split; constructor|]. split.
  - intros [H1 H2]. constructor; [auto|now apply IH].
  - intros H. inversion H; subst. split; [auto|now apply IH].
Qed.
Lemma expressible_all rnd create readable l :
  (fix all (l : list source) : Prop :=
     match l with [] => True | s :: l => expressible rnd create readable s /\ all l end) l
  <-> List.Forall (expressible rnd create readable) l.
Proof.
  induction l as [|s l IH]; [split; constructor|]. split.
  - intros [H1 H2]. constructor; [auto|now apply IH].
  - intros H. inversion H; subst. split; [auto|now apply IH].
Qed.

Lemma existsb_in (t : string) l : existsb (String.eqb t) l = true <-> In t l.
Proof.
  rewrite existsb_exists. split.
  - intros (x & H & E). apply String.eqb_eq in E. now subst.
  - intros H. exists t. split; [auto|apply String.eqb_refl].
Qed.
Lemma writes_file_in t : writes_file t = true <-> In t spectrum_files.
Proof.
  rewrite <- existsb_in. unfold writes_file, spectrum_files. simpl.
  destruct (t =? "DMFitFunction"), (t =? "FileFunction"), (t =? "ScaleFactor::FileFunction"); simpl; tauto.
Qed.
Lemma spatial_file_in t : spatial_file t = true <-> In t spatial_files.
Proof.
  rewrite <- existsb_in. unfold spatial_file, spatial_files, map_files. simpl.
  destruct (t =? "SpatialMap"), (t =? "MapCubeFunction"), (t =? "RadialProfile"); simpl; tauto.
Qed.

Lemma attr_cons t k v a c k' :
  attr (Node t ((k, v) :: a) c) k' = if k =? k' then Some v else attr (Node t a c) k'.
Proof. unfold attr. cbn [n_attrs find fst]. destruct (k =? k'); reflexivity. Qed.

(** ** Numbered parameters *)
Lemma len_s a b : String.length (a +++ b) = String.length a + String.length b.
Proof. apply len_app. Qed.
Lemma substring_all s : forall n, String.length s <= n -> substring 0 n s = s.
Proof. induction s as [|c s IH]; intros [|n] H; simpl in *; try reflexivity; try lia. f_equal. apply IH. lia. Qed.
Lemma prefix_self p s : prefix p (p +++ s) = true.
Proof. induction p as [|c p IH]; simpl; [destruct s; reflexivity|]. destruct (ascii_dec c c); [auto|congruence]. Qed.
Lemma substring_more s : forall n m, String.length s <= m -> substring n (S m) s = substring n m s.
Proof.
  induction s as [|c s IH]; intros [|n] m H; simpl in *; try reflexivity; try (destruct m; reflexivity).
  - destruct m as [|m]; [lia|]. f_equal. apply (IH 0 m). lia.
  - apply IH. lia.
Qed.
Lemma after_prefix p s : substring (String.length p) (String.length (p +++ s)) (p +++ s) = s.
Proof.
  induction p as [|c p IH]; simpl; [apply substring_all; lia|].
  rewrite substring_more by lia. exact IH.
Qed.
Lemma atoi_uint d : forall acc, atoi_acc acc (NilEmpty.string_of_uint d) = Nat.of_uint_acc d acc.
Proof.
  induction d; intros acc; [reflexivity|..]; cbn [NilEmpty.string_of_uint Nat.of_uint_acc];
    rewrite Nat.tail_mul_spec, <- IHd;
    match goal with |- atoi_acc acc (String ?c ?s) = _ =>
      change (atoi_acc acc (String c s)) with (atoi_acc (10 * acc + (nat_of_ascii c - 48)) s);
      let v := eval vm_compute in (nat_of_ascii c - 48) in change (nat_of_ascii c - 48) with v
    end; f_equal; cbn [Nat.mul]; lia.
Qed.
Lemma atoi_decimal k : atoi (decimal k) = k.
Proof.
  unfold atoi, decimal. rewrite <- (DecimalNat.Unsigned.of_to k) at 2. unfold Nat.of_uint. rewrite <- atoi_uint.
  destruct (Nat.to_uint k); reflexivity.
Qed.
Lemma put_end v x : put v (List.length v) x = v ++ [x].
Proof.
  unfold put. rewrite Nat.leb_refl. unfold vec_resize. rewrite Nat.add_comm. cbn [Nat.add].
  rewrite firstn_all2 by lia. replace (S (List.length v) - List.length v) with 1 by lia. cbn [repeat].
  induction v as [|y v IH]; [reflexivity|]. cbn [app List.length upd]. now rewrite IH.
Qed.
Lemma rising_ok l : ascending l -> rising l = true.
Proof.
  induction l as [|x [|y l] IH]; intros H; try reflexivity. destruct H as [H1 H2].
  change (rising (x :: y :: l)) with (Rltb x y && rising (y :: l)). rewrite (IH H2).
  destruct (Rltb_spec x y); [reflexivity|lra].
Qed.

Fixpoint depth_s (s : source) : nat :=
  match s with Composite _ _ _ l => S (fold_right (fun c h => Nat.max (depth_s c) h) 0 l) | _ => 0 end.
Lemma depth_in l s : In s l -> depth_s s <= fold_right (fun c h => Nat.max (depth_s c) h) 0 l.
Proof. induction l as [|x l IH]; simpl; [tauto|]. intros [->|H]; [lia|specialize (IH H); lia]. Qed.
(** Induction on sources with the members of composites. *)
Lemma source_ind' (P : source -> Prop) :
  (forall n f g a d, P (Point n f g a d)) -> (forall n f g sp mb, P (Diffuse n f g sp mb)) ->
  (forall n f g l, List.Forall P l -> P (Composite n f g l)) -> forall s, P s.
Proof.
  intros H1 H2 H3. assert (G : forall k s, depth_s s < k -> P s).
  { induction k as [|k IH]; [lia|]. intros [n f g a d|n f g sp mb|n f g l] E; auto. apply H3. apply Forall_forall.
    intros s Hs. apply IH. apply depth_in in Hs. simpl in E. lia. }
  intros s. apply (G (S (depth_s s))). lia.
Qed.

Section Proofs.
Variables (wr : R -> string) (rd : string -> option R) (rnd : R -> R).
Variable create : string -> option func.
Variable readable : string -> bool.
Variables lo hi : R.
Hypothesis Hd : decimals wr rd rnd.

Let param_node := param_node wr.
Let source_node := source_node wr.

(** ** The written document is plain *)
Lemma param_plain p : param_ok p -> plain (param_node p).
Proof.
  intros [_ Hp]. apply plain_node. split; [|split; [|constructor]].
  - split; [discriminate|reflexivity].
  - repeat (constructor; [split; [split; [discriminate|reflexivity]|]|]); cbn [snd]; try apply (d_text _ _ _ Hd); auto; try (destruct (p_free p); reflexivity).
Qed.
Lemma params_plain l : List.Forall param_ok l -> List.Forall plain (map param_node l).
Proof. intros H. apply Forall_map. eapply Forall_impl; [|exact H]. exact param_plain. Qed.
Ltac nameok := split; [split; [discriminate|reflexivity]|cbn [snd]].
Lemma spectral_plain f : func_text f -> plain (spectral_node wr f).
Proof.
  intros (Ht & Hfi & Hs & Hp). apply plain_node. split; [split; [discriminate|reflexivity]|]. split.
  - apply Forall_app. split; [constructor; [nameok; exact Ht|constructor]|]. apply Forall_app. split.
    + destruct (writes_file (f_type f)); [constructor; [nameok; exact Hfi|constructor]|constructor].
    + destruct (f_scaling f =? ""); [constructor|constructor; [nameok; auto|constructor]].
  - now apply params_plain.
Qed.

Lemma source_plain s : writable s -> plain (source_node s).
Proof.
  induction s as [n f g a d|n f g sp mb|n f g l IH] using source_ind'; intros (Hn & Hf & Hb); cbn [s_name s_spec] in *;
    unfold source_node; cbn [XmlModel.source_node]; apply plain_node; (split; [split; [discriminate|reflexivity]|]); split;
    try (constructor; [nameok; auto|constructor; [nameok; reflexivity|constructor]]);
    (constructor; [now apply spectral_plain|constructor; [|constructor]]); apply plain_node; (split; [split; [discriminate|reflexivity]|]).
  - split; [constructor; [nameok; reflexivity|constructor]|].
    constructor; [|constructor; [|constructor]]; (apply plain_node; split; [split; [discriminate|reflexivity]|split; [|constructor]];
    repeat (constructor; [split; [split; [discriminate|reflexivity]|]|]); cbn [snd]; try apply (d_text _ _ _ Hd); auto; reflexivity).
  - destruct Hb as (Hb1 & Hb2 & Hb3 & Hb4). split.
    + apply Forall_app. split; [constructor; [nameok; exact Hb1|constructor]|]. apply Forall_app. split.
      * destruct (spatial_file (f_type sp)); [constructor; [nameok; exact Hb2|constructor]|constructor].
      * destruct mb; [constructor; [nameok; reflexivity|constructor]|constructor].
    + now apply params_plain.
  - apply writable_all in Hb. split; [constructor|].
    apply Forall_map. rewrite Forall_forall in *. intros x Hx. apply IH; auto.
Qed.
Lemma library_plain fl t m :
  text_ok fl -> text_ok t -> List.Forall writable m -> plain (library_node wr fl t m).
Proof.
  intros H1 H2 H3. apply plain_node. split; [split; [discriminate|reflexivity]|]. split.
  - apply Forall_app. split; [destruct (fl =? ""); [constructor|constructor; [nameok; auto|constructor]]|constructor; [nameok; auto|constructor]].
  - apply Forall_map. eapply Forall_impl; [|exact H3]. exact source_plain.
Qed.

Lemma expressible_writable s : expressible rnd create readable s -> writable s.
Proof.
  induction s as [n f g a d|n f g sp mb|n f g l IH] using source_ind'; intros (Hn & Hf & Hb); cbn [s_name s_spec] in *;
    (split; [exact Hn|]); (split; [apply Hf|]); auto.
  - apply Hb.
  - destruct Hb as [_ Hb]. apply expressible_all in Hb. apply writable_all. rewrite Forall_forall in *. intros x Hx. apply IH; auto.
Qed.

(** ** Parameters *)
Lemma extract_ok p q :
  param_ok p -> p_name q = p_name p -> extractDomData rd (param_node p) q = Ok (stored_param rnd p).
Proof.
  intros [[Hb1 Hb2] _] Hn. unfold extractDomData, get_num, param_node, XmlModel.param_node.
  rewrite !attr_cons. cbn [String.eqb Ascii.eqb Bool.eqb]. rewrite !(d_back _ _ _ Hd). cbn [obind].
  pose proof (d_mono _ _ _ Hd _ _ Hb1) as M1. pose proof (d_mono _ _ _ Hd _ _ Hb2) as M2.
  destruct (Rltb_spec (rnd (p_value p)) (rnd (p_min p))); [lra|].
  destruct (Rltb_spec (rnd (p_max p)) (rnd (p_value p))); [lra|]. cbn [orb].
  unfold stored_param. rewrite Hn. destruct (p_free p); reflexivity.
Qed.
Lemma name_attr p : attr_or (param_node p) "name" "" = p_name p.
Proof. reflexivity. Qed.

Lemma set_named_at done p q rest :
  param_ok p -> p_name q = p_name p -> ~ In (p_name p) (map p_name done) ->
  set_named rd (done ++ q :: rest) (param_node p) = Ok (done ++ stored_param rnd p :: rest).
Proof.
  intros Hp Hq. induction done as [|x done IH]; intros Hn; cbn [app set_named]; rewrite name_attr.
  - rewrite Hq, String.eqb_refl, extract_ok by auto. reflexivity.
  - simpl in Hn. destruct (String.eqb_spec (p_name x) (p_name p)); [tauto|]. rewrite IH by tauto. reflexivity.
Qed.
Lemma set_all ps : forall done qs,
  List.Forall param_ok ps -> map p_name qs = map p_name ps -> NoDup (map p_name (done ++ ps)) ->
  mfold (set_named rd) (map param_node ps) (done ++ qs) = Ok (done ++ map (stored_param rnd) ps).
Proof.
  induction ps as [|p ps IH]; intros done qs Hok Hn Hnd.
  - destruct qs; [reflexivity|discriminate].
  - destruct qs as [|q qs]; [discriminate|]. cbn [map] in Hn. injection Hn as Hq Hqs.
    inversion Hok; subst. cbn [map mfold]. rewrite set_named_at; auto.
    2:{ rewrite map_app in Hnd. cbn [map] in Hnd. apply NoDup_remove_2 in Hnd. intros Hi. apply Hnd. apply in_or_app. now left. }
    cbn [obind]. specialize (IH (done ++ [stored_param rnd p]) qs). rewrite <- !app_assoc in IH. cbn [app] in IH.
    rewrite IH; auto. rewrite map_app. cbn [map]. rewrite map_app in Hnd. cbn [map] in Hnd. exact Hnd.
Qed.
Lemma set_all0 ps qs :
  List.Forall param_ok ps -> map p_name qs = map p_name ps -> NoDup (map p_name ps) ->
  mfold (set_named rd) (map param_node ps) qs = Ok (map (stored_param rnd) ps).
Proof. intros H1 H2 H3. exact (set_all ps [] qs H1 H2 H3). Qed.

Lemma filter_all {A} (P : A -> bool) l : (forall x, In x l -> P x = true) -> filter P l = l.
Proof. induction l as [|x l IH]; simpl; intros H; auto. rewrite (H x) by auto. f_equal. apply IH. auto. Qed.
Lemma children_params t a ps : children (Node t a (map param_node ps)) "parameter" = map param_node ps.
Proof.
  unfold children. apply filter_all. intros x Hx. apply in_map_iff in Hx as (p & <- & _). reflexivity.
Qed.

(** ** Functions *)
Lemma in_list_functions t : (t =? "MultipleBPL") = true \/ (t =? "PiecewisePowerLaw") = true -> In t list_functions.
Proof. intros [H|H]; apply String.eqb_eq in H; subst; simpl; auto. Qed.

Lemma attr_type f : attr_or (spectral_node wr f) "type" "" = f_type f.
Proof. reflexivity. Qed.
Lemma attr_file f : attr_or (spectral_node wr f) "file" "" = if writes_file (f_type f) then f_file f else "".
Proof.
  unfold attr_or, spectral_node. cbn [app]. rewrite attr_cons. change ("type" =? "file") with false. cbv iota.
  destruct (writes_file (f_type f)).
  - cbn [app]. rewrite attr_cons. reflexivity.
  - destruct (f_scaling f =? ""); reflexivity.
Qed.
Lemma attr_scaling f : attr_or (spectral_node wr f) "scaling_file" "" = f_scaling f.
Proof.
  unfold attr_or, spectral_node. cbn [app]. rewrite attr_cons. change ("type" =? "scaling_file") with false. cbv iota.
  destruct (writes_file (f_type f)); cbn [app]; [rewrite attr_cons; change ("file" =? "scaling_file") with false; cbv iota|];
    (destruct (String.eqb_spec (f_scaling f) "") as [E|E]; [rewrite E; reflexivity|rewrite attr_cons; reflexivity]).
Qed.
Lemma attr_edisp f : attr_or (spectral_node wr f) "apply_edisp" "" = "".
Proof.
  unfold attr_or, spectral_node. cbn [app]. destruct (writes_file (f_type f)), (f_scaling f =? ""); reflexivity.
Qed.

Lemma attr_double_value p d : attr_double rd (param_node p) "value" d = rnd (p_value p).
Proof.
  unfold attr_double. change (attr_or (param_node p) "value" "") with (wr (p_value p)).
  destruct (d_text _ _ _ Hd (p_value p)) as [_ E]. destruct (String.eqb_spec (wr (p_value p)) ""); [congruence|].
  now rewrite (d_back _ _ _ Hd).
Qed.
Lemma attr_double_scale p d : attr_double rd (param_node p) "scale" d = rnd (p_scale p).
Proof.
  unfold attr_double. change (attr_or (param_node p) "scale" "") with (wr (p_scale p)).
  destruct (d_text _ _ _ Hd (p_scale p)) as [_ E]. destruct (String.eqb_spec (wr (p_scale p)) ""); [congruence|].
  now rewrite (d_back _ _ _ Hd).
Qed.

Definition knot_of (p : param) : R := (rnd (p_value p) * rnd (p_scale p))%R.
Lemma names_split (ps : list param) (a b : list string) :
  map p_name ps = a ++ b -> exists p q, ps = p ++ q /\ map p_name p = a /\ map p_name q = b.
Proof. intros H. apply map_eq_app in H. destruct H as (p & q & E & H1 & H2). exists p, q. auto. Qed.

(** What the two loops over parameter elements leave. *)
Section Loop.
Variables (base : string) (S0 : Type).
Variable step : S0 -> node -> S0.
Variable get : S0 -> list R.
Variable val : param -> R.
Variable upd_ : S0 -> list R -> S0.
Hypothesis step_base : forall st p x, p_name p = base +++ x ->
  step st (param_node p) = upd_ st (put (get st) (atoi x) (val p)).
Hypothesis get_upd : forall st v, get (upd_ st v) = v.
Hypothesis upd_get : forall st, upd_ st (get st) = st.
Hypothesis upd_upd : forall st v w, upd_ (upd_ st v) w = upd_ st w.
Lemma loop_numbered : forall ps k st,
  List.length (get st) = k ->
  map p_name ps = map (fun k => base +++ NilZero.string_of_uint (Nat.to_uint k)) (seq k (List.length ps)) ->
  fold_left step (map param_node ps) st = upd_ st (get st ++ map val ps).
Proof.
  induction ps as [|p ps IH]; intros k st Hk Hn; cbn [map fold_left].
  - now rewrite app_nil_r, upd_get.
  - cbn [List.length seq map] in Hn. injection Hn as Hp Hps.
    rewrite (step_base st p _ Hp). change (NilZero.string_of_uint (Nat.to_uint k)) with (decimal k).
    rewrite atoi_decimal, <- Hk, put_end.
    rewrite (IH (S k)); auto.
    + rewrite get_upd, upd_upd, <- app_assoc. reflexivity.
    + rewrite get_upd, app_length. simpl. lia.
Qed.
End Loop.

Lemma numbered_len (ps : list param) base n : map p_name ps = numbered base n -> List.length ps = n.
Proof. intros H. apply (f_equal (@List.length string)) in H. unfold numbered in H. now rewrite !map_length, seq_length in H. Qed.
Lemma numbered_loop (ps : list param) base n : map p_name ps = numbered base n ->
  map p_name ps = map (fun k => base +++ NilZero.string_of_uint (Nat.to_uint k)) (seq 0 (List.length ps)).
Proof. intros H. rewrite (numbered_len _ _ _ H). exact H. Qed.
Lemma bpl_ok proto f n :
  f_params proto = [] -> f_type proto = f_type f ->
  map p_name (f_params f) = "Normalization" :: numbered "Index" (S n) ++ numbered "Break" n ->
  ascending (map knot_of (filter is_knot (f_params f))) ->
  exists f1, addParamsToMultipleBPL rd lo hi proto (map param_node (f_params f)) = Ok f1 /\
    f_type f1 = f_type f /\ map p_name (f_params f1) = map p_name (f_params f) /\
    f_knots f1 = map knot_of (filter is_knot (f_params f)) /\ f_file f1 = f_file proto /\ f_scaling f1 = f_scaling proto.
Proof.
  intros Hp Ht Hn Ha.
  destruct (f_params f) as [|p0 ps] eqn:Ef; [discriminate|]. pose proof (f_equal (hd "") Hn) as H0. apply (f_equal (@tl string)) in Hn. cbn [map hd tl] in H0, Hn.
  destruct (names_split _ _ _ Hn) as (pi & pb & -> & Hi & Hb).
  assert (Ek : filter is_knot (p0 :: pi ++ pb) = pb).
  { cbn [filter]. replace (is_knot p0) with false by (unfold is_knot; rewrite H0; reflexivity).
    rewrite filter_app.
    assert (G1 : filter is_knot pi = []).
    { rewrite <- (filter_all (fun _ => true) pi) at 1 by auto. clear -Hi. revert Hi. unfold numbered. generalize 0, (S n). intros a b. revert a pi.
      induction b as [|b IH]; intros a [|p pi] H; try discriminate; [reflexivity|]. cbn [seq map filter] in *. injection H as E H.
      rewrite (IH _ _ H). unfold is_knot. rewrite E. reflexivity. }
    assert (G2 : filter is_knot pb = pb).
    { apply filter_all. intros p Hp'. apply (in_map p_name) in Hp'. rewrite Hb in Hp'. apply in_map_iff in Hp' as (k & E & _).
      unfold is_knot. rewrite <- E, prefix_self. reflexivity. }
    rewrite G1, G2. reflexivity. }
  rewrite Ek in *.
  unfold addParamsToMultipleBPL.
  set (step := fun (st : R * list R * list R) (n : node) => _). cbn [map fold_left].
  rewrite map_app, fold_left_app.
  assert (E0 : step (1%R, [], []) (param_node p0) = (rnd (p_value p0), [], [])).
  { unfold step. rewrite name_attr, H0. cbn [String.eqb Ascii.eqb Bool.eqb]. rewrite attr_double_value. reflexivity. }
  rewrite E0.
  rewrite (loop_numbered "Index" _ step (fun st => snd (fst st)) (fun p => rnd (p_value p)) (fun st v => (fst (fst st), v, snd st))) with (ps := pi) (k := 0).
  2:{ intros [[a b] c] p x Hx. unfold step. rewrite name_attr, Hx, prefix_self.
      change (substring 5) with (substring (String.length "Index")). rewrite after_prefix, !attr_double_value. reflexivity. }
  2,3,4: (intros; repeat match goal with st : _ * _ |- _ => destruct st end; reflexivity).
  2: reflexivity.
  2: now apply numbered_loop with (S n).
  rewrite (loop_numbered "Break" _ step snd knot_of (fun st v => (fst st, v))) with (ps := pb) (k := 0).
  2:{ intros [[a b] c] p x Hx. unfold step. rewrite name_attr, Hx, prefix_self.
      change (substring 5) with (substring (String.length "Break")). rewrite after_prefix, !attr_double_value, attr_double_scale. reflexivity. }
  2,3,4: (intros; repeat match goal with st : _ * _ |- _ => destruct st end; reflexivity).
  2: reflexivity.
  2: now apply numbered_loop with n.
  clear step E0. cbn [fst snd app]. rewrite !map_length, (numbered_len _ _ _ Hi), (numbered_len _ _ _ Hb).
  replace (S n =? n + 1)%nat with true by (symmetry; apply Nat.eqb_eq; lia). cbn [negb].
  rewrite rising_ok by exact Ha. cbn [negb]. eexists. split; [reflexivity|]. cbn [f_type f_params f_knots f_file f_scaling].
  split; [exact Ht|]. split; [|auto]. rewrite Hp. cbn [app map p_name new_param]. rewrite H0, !map_app, !map_map, Hi, Hb. reflexivity.
Qed.

Lemma ppl_ok proto f n :
  f_params proto = [] -> f_type proto = f_type f ->
  map p_name (f_params f) = "IndexL" :: "IndexH" :: numbered "dNdE" n ++ numbered "Energy" n ->
  ascending (map knot_of (filter is_knot (f_params f))) ->
  exists f1, addParamsToPiecewisePL rd lo hi proto (map param_node (f_params f)) = Ok f1 /\
    f_type f1 = f_type f /\ map p_name (f_params f1) = map p_name (f_params f) /\
    f_knots f1 = map knot_of (filter is_knot (f_params f)) /\ f_file f1 = f_file proto /\ f_scaling f1 = f_scaling proto.
Proof.
  intros Hp Ht Hn Ha.
  destruct (f_params f) as [|p0 [|p1 ps]] eqn:Ef; try discriminate. pose proof (f_equal (hd "") Hn) as H0. apply (f_equal (@tl string)) in Hn. pose proof (f_equal (hd "") Hn) as H1. apply (f_equal (@tl string)) in Hn. cbn [map hd tl] in H0, H1, Hn.
  destruct (names_split _ _ _ Hn) as (pi & pb & -> & Hi & Hb).
  assert (Ek : filter is_knot (p0 :: p1 :: pi ++ pb) = pb).
  { cbn [filter]. replace (is_knot p0) with false by (unfold is_knot; rewrite H0; reflexivity).
    replace (is_knot p1) with false by (unfold is_knot; rewrite H1; reflexivity).
    rewrite filter_app.
    assert (G1 : filter is_knot pi = []).
    { clear -Hi. revert Hi. unfold numbered. generalize 0, n. intros a b. revert a pi.
      induction b as [|b IH]; intros a [|p pi] H; try discriminate; [reflexivity|]. cbn [seq map filter] in *. injection H as E H.
      rewrite (IH _ _ H). unfold is_knot. rewrite E. reflexivity. }
    assert (G2 : filter is_knot pb = pb).
    { apply filter_all. intros p Hp'. apply (in_map p_name) in Hp'. rewrite Hb in Hp'. apply in_map_iff in Hp' as (k & E & _).
      unfold is_knot. rewrite <- E, (prefix_self "Energy"). apply orb_true_r. }
    rewrite G1, G2. reflexivity. }
  rewrite Ek in *.
  unfold addParamsToPiecewisePL.
  set (step := fun (st : list R * list R) (n : node) => _). cbn [map fold_left].
  rewrite map_app, fold_left_app.
  assert (E0 : step (step ([], []) (param_node p0)) (param_node p1) = ([], [])).
  { unfold step. rewrite !name_attr, H0, H1. reflexivity. }
  rewrite E0.
  rewrite (loop_numbered "dNdE" _ step fst (fun p => 0%R) (fun st v => (v, snd st))) with (ps := pi) (k := 0).
  2:{ intros [b c] p x Hx. unfold step. rewrite name_attr, Hx, prefix_self.
      change (substring 4) with (substring (String.length "dNdE")). rewrite after_prefix. reflexivity. }
  2,3,4: (intros; repeat match goal with st : _ * _ |- _ => destruct st end; reflexivity).
  2: reflexivity.
  2: now apply numbered_loop with n.
  rewrite (loop_numbered "Energy" _ step snd knot_of (fun st v => (fst st, v))) with (ps := pb) (k := 0).
  2:{ intros [b c] p x Hx. unfold step. rewrite name_attr, Hx, prefix_self.
      change (substring 6) with (substring (String.length "Energy")). rewrite after_prefix, !attr_double_value, attr_double_scale. reflexivity. }
  2,3,4: (intros; repeat match goal with st : _ * _ |- _ => destruct st end; reflexivity).
  2: reflexivity.
  2: now apply numbered_loop with n.
  clear step E0. cbn [fst snd app]. rewrite !map_length, (numbered_len _ _ _ Hi), (numbered_len _ _ _ Hb).
  rewrite Nat.eqb_refl. cbn [negb].
  rewrite rising_ok by exact Ha. cbn [negb]. eexists. split; [reflexivity|]. cbn [f_type f_params f_knots f_file f_scaling].
  split; [exact Ht|]. split; [|auto]. rewrite Hp. cbn [app map p_name new_param]. rewrite H0, H1, !map_app, !map_map, Hi, Hb. reflexivity.
Qed.

Lemma has_list_eq t : has_list t = true -> t = "MultipleBPL" \/ t = "PiecewisePowerLaw".
Proof. unfold has_list. rewrite existsb_in. simpl. intuition. Qed.
Lemma knots_stored f : true_knots (mk_func (f_type f) (map (stored_param rnd) (f_params f)) (f_file f) (f_scaling f) (f_knots f))
  = map knot_of (filter is_knot (f_params f)).
Proof.
  unfold true_knots. cbn [f_params]. induction (f_params f) as [|p l IH]; [reflexivity|]. cbn [map filter].
  change (is_knot (stored_param rnd p)) with (is_knot p). destruct (is_knot p); [cbn [map]; now rewrite IH|exact IH].
Qed.

Lemma read_spectrum_ok f :
  spectrum_ok rnd create readable f ->
  read_spectrum rd create readable lo hi (spectral_node wr f) = Ok (stored_func rnd f, true).
Proof.
  intros ((Ht & Hfile & Hs & Hp) & (Hnd & proto & Hc & HI & F3 & F1 & F2) & Hr).
  unfold read_spectrum. rewrite attr_type, attr_file, attr_scaling.
  assert (Ech : children (spectral_node wr f) "parameter" = map param_node (f_params f)) by apply children_params.
  rewrite Ech, Hc.
  assert (G : exists f1, (if f_type f =? "MultipleBPL" then addParamsToMultipleBPL rd lo hi proto (map param_node (f_params f))
                          else if f_type f =? "PiecewisePowerLaw" then addParamsToPiecewisePL rd lo hi proto (map param_node (f_params f)) else Ok proto)
                         = Ok f1 /\ f_type f1 = f_type f /\ map p_name (f_params f1) = map p_name (f_params f) /\
                         f_knots f1 = f_knots (stored_func rnd f) /\ f_file f1 = f_file proto /\ f_scaling f1 = f_scaling proto).
  { destruct (has_list (f_type f)) eqn:El.
    - destruct HI as (I1 & I2 & I3 & n & I4).
      assert (E : f_knots (stored_func rnd f) = map knot_of (filter is_knot (f_params f)))
        by (unfold stored_func; cbv zeta; rewrite El; cbn [f_knots]; apply knots_stored).
      assert (A : ascending (map knot_of (filter is_knot (f_params f)))).
      { revert I3. unfold stored_func. cbv zeta. rewrite El. unfold true_knots at 1. cbn [f_params]. fold (true_knots (mk_func (f_type f) (map (stored_param rnd) (f_params f)) (f_file f) (f_scaling f) (f_knots f))).
        intros I3. rewrite <- knots_stored. exact I3. }
      rewrite E. apply has_list_eq in El. destruct El as [Ely|Ely]; rewrite Ely in *; cbn [String.eqb Ascii.eqb Bool.eqb] in *.
      + destruct (bpl_ok proto f n) as (f1 & Q); auto; [congruence|]. exists f1. rewrite Ely in Q. exact Q.
      + destruct (ppl_ok proto f n) as (f1 & Q); auto; [congruence|]. exists f1. rewrite Ely in Q. exact Q.
    - destruct HI as (I1 & I2 & I3). exists proto.
      destruct (String.eqb_spec (f_type f) "MultipleBPL") as [E|E]; [rewrite E in El; discriminate|].
      destruct (String.eqb_spec (f_type f) "PiecewisePowerLaw") as [E'|E']; [rewrite E' in El; discriminate|].
      unfold stored_func. cbv zeta. rewrite El. auto 6. }
  destruct G as (f1 & -> & G1 & G2 & G3 & G4 & G5). cbn [obind]. rewrite set_all0 by auto. cbn [obind].
  assert (Eap : apply_flag (spectral_node wr f) "apply_edisp" = Ok true) by (unfold apply_flag; rewrite attr_edisp; reflexivity).
  rewrite Eap. cbn [obind].
  assert (Es : negb (f_scaling f =? "") && negb (readable (f_scaling f)) = false).
  { destruct (String.eqb_spec (f_scaling f) ""); [reflexivity|]. rewrite Hr by auto. reflexivity. }
  rewrite Es, G1, G3, G4, G5, F3.
  assert (Ef : (if f_scaling f =? "" then "" else f_scaling f) = f_scaling f).
  { destruct (String.eqb_spec (f_scaling f) "") as [E|E]; congruence. }
  rewrite Ef.
  assert (Est : mk_func (f_type f) (map (stored_param rnd) (f_params f)) (f_file f) (f_scaling f) (f_knots (stored_func rnd f)) = stored_func rnd f).
  { unfold stored_func. cbv zeta. destruct (has_list (f_type f)); reflexivity. }
  destruct (writes_file (f_type f)) eqn:Ew.
  - rewrite F1 by now apply writes_file_in. cbn [negb andb]. rewrite Est. reflexivity.
  - cbn [andb]. rewrite F2, Est; [reflexivity|]. intros Hi. apply writes_file_in in Hi. congruence.
Qed.

(** ** Sources *)
Lemma tag_node s : n_tag (source_node s) = "source".
Proof. destruct s; reflexivity. Qed.

Lemma read_position_ok t a ra dec :
  read_position rd (Node t a (map param_node (position_params ra dec))) = (rnd ra, rnd dec).
Proof.
  unfold read_position. rewrite children_params.
  unfold position_params. cbn [map fold_left]. rewrite !name_attr. cbn [p_name fst snd].
  cbn [String.eqb Ascii.eqb Bool.eqb].
  assert (A : forall n x s a b fr, attr_double rd (param_node (mk_param n x s a b fr)) "value" 0 = rnd x).
  { intros. unfold attr_double. change (attr_or (param_node (mk_param n x s a0 b fr)) "value" "") with (wr x).
    destruct (d_text _ _ _ Hd x) as [_ E]. destruct (String.eqb_spec (wr x) ""); [congruence|]. rewrite (d_back _ _ _ Hd). reflexivity. }
  rewrite !A. reflexivity.
Qed.

Lemma source_of_ok require lib s :
  expressible rnd create readable s ->
  (forall n f g l, s = Composite n f g l ->
     lib (Node "source_library" [] (map source_node l)) = Ok (map (stored rnd require) l) /\
     add_sources (map (stored rnd require) l) [] = Ok (map (stored rnd require) l)) ->
  source_of rd create readable lo hi require true (source_node s) lib = Ok (Some (stored rnd require s)).
Proof.
  intros HE HL.
  destruct s as [n f g ra dec|n f g sp mb|n f g l]; destruct HE as (Hn & Hf & Hb); unfold source_node in *; cbn [XmlModel.source_node s_name s_spec] in *.
  - unfold source_of. unfold children at 1. cbn [n_kids filter n_tag spectral_node String.eqb Ascii.eqb Bool.eqb].
    change (Node "spectrum" _ _) with (spectral_node wr f).
    change (attr_or (Node "source" [("name", n); ("type", "PointSource")] _) "type" "") with "PointSource".
    cbn [String.eqb Ascii.eqb Bool.eqb andb]. unfold children at 1. cbn [n_kids filter n_tag spectral_node String.eqb Ascii.eqb Bool.eqb].
    change (Node "spectrum" _ _) with (spectral_node wr f).
    unfold makePointSource. change (attr_or (Node "spatialModel" [("type", "SkyDirFunction")] _) "type" "") with "SkyDirFunction".
    change ("SkyDirFunction" =? "SkyDirFunction") with true. cbn [negb].
    change (map (XmlModel.param_node wr) (position_params ra dec)) with (map param_node (position_params ra dec)).
    rewrite read_position_ok, read_spectrum_ok by auto. reflexivity.
  - unfold source_of. unfold children at 1. cbn [n_kids filter n_tag spectral_node String.eqb Ascii.eqb Bool.eqb].
    change (Node "spectrum" _ _) with (spectral_node wr f).
    change (attr_or (Node "source" [("name", n); ("type", "DiffuseSource")] _) "type" "") with "DiffuseSource".
    cbn [String.eqb Ascii.eqb Bool.eqb andb]. unfold children at 1. cbn [n_kids filter n_tag spectral_node String.eqb Ascii.eqb Bool.eqb].
    change (Node "spectrum" _ _) with (spectral_node wr f).
    destruct Hb as (((Ht & Hfile & _ & Hp) & (Hnd & proto & Hc & (I1 & I2 & I4) & F3 & F1 & F2) & Hsc & Hnl) & Hmb).
    set (sn := Node "spatialModel" _ _).
    unfold makeDiffuseSource.
    assert (E1 : attr_or sn "type" "" = f_type sp) by reflexivity.
    assert (E2 : attr_or sn "file" "" = if spatial_file (f_type sp) then f_file sp else "").
    { unfold sn, attr_or. cbn [app]. rewrite attr_cons. change ("type" =? "file") with false. cbv iota.
      destruct (spatial_file (f_type sp)); [cbn [app]; rewrite attr_cons; reflexivity|destruct mb; reflexivity]. }
    assert (E3 : attr_or sn "map_based_integral" "" = if mb then "true" else "").
    { unfold sn, attr_or. cbn [app]. destruct (spatial_file (f_type sp)), mb; reflexivity. }
    assert (E4 : children sn "parameter" = map param_node (f_params sp)) by apply children_params.
    assert (E5 : apply_flag sn "apply_psf" = Ok true /\ apply_flag sn "apply_exposure" = Ok true).
    { unfold sn, apply_flag, attr_or. cbn [app]. destruct (spatial_file (f_type sp)), mb; split; reflexivity. }
    clearbody sn. rewrite E1, E2, E3, E4, Hc, set_all0 by auto. cbn [obind]. rewrite read_spectrum_ok by auto.
    assert (Er : spatial_file (f_type sp) && negb (readable (if spatial_file (f_type sp) then f_file sp else "")) = false).
    { destruct (spatial_file (f_type sp)) eqn:Es; [|reflexivity]. rewrite F1 by now apply spatial_file_in. reflexivity. }
    rewrite Er. cbn [obind]. unfold with_flags. destruct E5 as [-> ->]. cbn [obind fst snd set_name stored g_edisp g_computed].
    change (attr_or (Node "source" [("name", n); ("type", "DiffuseSource")] _) "name" "") with n.
    repeat f_equal.
    + unfold stored_func. cbv zeta. replace (has_list (f_type sp)) with false by (symmetry; apply not_true_is_false; unfold has_list; rewrite existsb_in; exact Hnl).
      rewrite I1, I4, F3, Hsc. f_equal.
      destruct (spatial_file (f_type sp)) eqn:Es; [reflexivity|]. apply F2. intros Hi. apply spatial_file_in in Hi. congruence.
    + destruct mb.
      * specialize (Hmb eq_refl). simpl in Hmb. destruct Hmb as [<-|[<-|[]]]; reflexivity.
      * destruct ((f_type sp =? "SpatialMap") || (f_type sp =? "MapCubeFunction")); reflexivity.
  - destruct (HL _ _ _ _ eq_refl) as [HL1 HL2].
    unfold source_of. unfold children at 1. cbn [n_kids filter n_tag spectral_node String.eqb Ascii.eqb Bool.eqb].
    change (Node "spectrum" _ _) with (spectral_node wr f).
    change (attr_or (Node "source" [("name", n); ("type", "CompositeSource")] _) "type" "") with "CompositeSource".
    cbn [String.eqb Ascii.eqb Bool.eqb andb]. unfold children at 1. cbn [n_kids filter n_tag spectral_node String.eqb Ascii.eqb Bool.eqb].
    unfold makeCompositeSource. rewrite HL1. cbn [obind]. rewrite HL2. cbn [obind].
    change (Node "spectrum" _ _) with (spectral_node wr f). rewrite read_spectrum_ok by auto. reflexivity.
Qed.

(** ** Maps of sources *)
Lemma stored_name require s : s_name (stored rnd require s) = s_name s.
Proof. destruct s; reflexivity. Qed.
Lemma ltb_asym a b : String.ltb a b = true -> String.ltb b a = false.
Proof.
  unfold String.ltb. rewrite String.compare_antisym. destruct (String.compare b a); simpl; congruence.
Qed.
Lemma ltb_neq a b : String.ltb a b = true -> (b =? a) = false.
Proof.
  intros H. apply String.eqb_neq. intros ->. unfold String.ltb in H.
  pose proof (String.compare_antisym a a) as E. destruct (String.compare a a); simpl in E; congruence.
Qed.
Lemma add_last s m :
  List.Forall (fun x => String.ltb (s_name x) (s_name s) = true) m -> add_source s m = Some (m ++ [s]).
Proof.
  induction m as [|x m IH]; intros H; [reflexivity|]. inversion H; subst. cbn [add_source].
  rewrite (ltb_asym _ _ H2), (ltb_neq _ _ H2), (IH H3). reflexivity.
Qed.
Lemma add_sources_sorted l : forall m,
  sorted_names (m ++ l) -> add_sources l m = Ok (m ++ l).
Proof.
  unfold add_sources. induction l as [|s l IH]; intros m H; [now rewrite app_nil_r|].
  cbn [mfold]. rewrite add_last.
  - cbn [obind]. rewrite IH; rewrite <- app_assoc; auto.
  - unfold sorted_names in H. rewrite map_app in H. clear IH. induction m as [|x m IHm]; [constructor|].
    cbn [map app] in H. inversion H; subst. constructor; [|now apply IHm].
    rewrite Forall_forall in H3. apply H3. apply in_or_app. right. now left.
Qed.
Lemma sorted_stored require l : sorted_names l -> sorted_names (map (stored rnd require) l).
Proof. unfold sorted_names. rewrite map_map. intros H. erewrite map_ext; [exact H|]. intros s. apply stored_name. Qed.
Lemma add_stored require l :
  sorted_names l -> add_sources (map (stored rnd require) l) [] = Ok (map (stored rnd require) l).
Proof. intros H. apply (add_sources_sorted _ []). now apply sorted_stored. Qed.

(** ** The whole document *)
Lemma collect require lib m : forall acc,
  (forall s, In s m -> source_of rd create readable lo hi require true (source_node s) lib = Ok (Some (stored rnd require s))) ->
  mfold (fun l n => obind (source_of rd create readable lo hi require true n lib)
                      (fun o => Ok (match o with Some s => l ++ [s] | None => l end))) (map source_node m) acc
  = Ok (acc ++ map (stored rnd require) m).
Proof.
  induction m as [|s m IH]; intros acc H; cbn [map mfold]; [now rewrite app_nil_r|].
  rewrite H by now left. cbn [obind]. rewrite IH by (intros; apply H; now right). rewrite <- app_assoc. reflexivity.
Qed.
Lemma children_sources t a m : children (Node t a (map source_node m)) "source" = map source_node m.
Proof. unfold children. apply filter_all. intros x Hx. apply in_map_iff in Hx as (s & <- & _). now rewrite tag_node. Qed.
Lemma height_in c k : In c k -> height c <= fold_right (fun c h => Nat.max (height c) h) 0 k.
Proof. induction k as [|x k IH]; simpl; [tauto|]. intros [->|H]; [lia|specialize (IH H); lia]. Qed.

Lemma makeSources_ok require : forall depth t a m,
  height (Node t a (map source_node m)) <= depth -> List.Forall (expressible rnd create readable) m ->
  makeSources rd create readable lo hi depth require true (Node t a (map source_node m)) = Ok (map (stored rnd require) m).
Proof.
  induction depth as [|depth IH]; intros t a m HH HF; [cbn [height] in HH; lia|].
  cbn [makeSources]. rewrite children_sources. rewrite collect; [reflexivity|].
  intros s Hs. rewrite Forall_forall in HF. specialize (HF s Hs). apply source_of_ok; auto.
  intros n f g l ->. destruct HF as (_ & _ & Hb). destruct Hb as [Hb1 Hb2]. apply expressible_all in Hb2. split.
  - apply IH; auto. cbn [height] in HH.
    assert (Hc : In (source_node (Composite n f g l)) (map source_node m)) by now apply in_map.
    apply height_in in Hc. unfold source_node at 1 in Hc. cbn [XmlModel.source_node] in Hc.
    pose proof (height_in (Node "source_library" [] (map source_node l)) [spectral_node wr f; Node "source_library" [] (map source_node l)]) as Hl.
    specialize (Hl ltac:(simpl; auto)).
    set (H2 := height (Node "source_library" [] (map source_node l))) in *.
    change (height (Node "source" [("name", n); ("type", "CompositeSource")]
              [spectral_node wr f; Node "source_library" [] (map (XmlModel.source_node wr) l)]))
      with (S (fold_right (fun c h => Nat.max (height c) h) 0 [spectral_node wr f; Node "source_library" [] (map source_node l)])) in Hc.
    lia.
  - now apply add_stored.
Qed.

Lemma add_until_ok l m : forall r, add_sources l m = Ok r -> add_until l m = (r, false).
Proof.
  revert m. induction l as [|s l IH]; intros m r H; cbn [add_until].
  - injection H as <-. reflexivity.
  - unfold add_sources in H. cbn [mfold] in H. destruct (add_source s m) as [m'|]; [|discriminate]. cbn [obind] in H. now apply IH.
Qed.

Lemma readXml_written require fl t m :
  sorted_names m -> List.Forall (expressible rnd create readable) m ->
  readXml rd create readable lo hi require true (library_node wr fl t m) []
  = (map (stored rnd require) m, false).
Proof.
  intros Hs Hf. unfold readXml, library_node. change (map (XmlModel.source_node wr) m) with (map source_node m).
  rewrite makeSources_ok; auto. cbn [obind]. rewrite add_stored by auto. apply add_until_ok. now apply add_stored.
Qed.
Lemma readFile_written require fl t m m0 :
  text_ok fl -> text_ok t -> List.Forall (expressible rnd create readable) m ->
  readFile rd create readable lo hi require true (writeXml wr fl t m) m0
  = readXml rd create readable lo hi require true (library_node wr fl t m) m0.
Proof.
  intros H1 H2 H3. unfold readFile, writeXml. rewrite parse_write; [reflexivity|]. apply library_plain; auto.
  eapply Forall_impl; [|exact H3]. exact expressible_writable.
Qed.
End Proofs.

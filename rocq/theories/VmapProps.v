(** Properties C74 and C174: vectors, maps, spectra and files of source maps. *)
From Coq Require Import Reals String Sorted Lra.
From Verif Require Import Base AccumModel AccumProofs SmapModel SmapSpec SmapProofs SmapNpred SmapProps VmapModel VmapSpec VmapProofs VmapProofs2.
Local Open Scope nat_scope.
Local Open Scope list_scope.

(** Adding a source map to a vector adds, in every pixel of the planes asked for, the stored value times the
    spectrum of the source in that plane (or the stored value alone, for a full map), and nothing elsewhere. *)
Theorem C74_add :
  forall (F D : Type) (add : F -> F -> D -> F) (one : D) m vect kmin K kmax,
  well_made m -> up_to_date m -> planes m kmin K kmax -> clear_end m kmax -> length vect = (kmax - kmin) * vm_np m ->
  (exists v, addToVector add one vect true kmin K m = Ok (v, m) /\
     pixelwise add (fun k => nth_error (vm_spec m) k) m kmin kmax vect v) /\
  ((exists i, vm_img m = Whole i) ->
   exists v, addToVector add one vect false kmin K m = Ok (v, m) /\
     pixelwise add (fun _ => Some one) m kmin kmax vect v).
Proof.
  intros F D add one m vect kmin K kmax W U P C L. split.
  - apply (add_ok add one m vect true kmin K kmax W U P C L). now left.
  - intros HI. apply (add_ok add one m vect false kmin K kmax W U P C L). now right.
Qed.
Print Assumptions C74_add.

(** Taking a source map away likewise, with or without the spectrum. *)
Theorem C74_subtract :
  forall (F D : Type) (sub : F -> F -> D -> F) (one : D) m vect kmin K kmax,
  well_made m -> up_to_date m -> planes m kmin K kmax -> clear_end m kmax -> length vect = (kmax - kmin) * vm_np m ->
  (exists v, subtractFromVector sub one vect true kmin K m = Ok (v, m) /\
     pixelwise sub (fun k => nth_error (vm_spec m) k) m kmin kmax vect v) /\
  (exists v, subtractFromVector sub one vect false kmin K m = Ok (v, m) /\
     pixelwise sub (fun _ => Some one) m kmin kmax vect v).
Proof.
  intros F D sub one m vect kmin K kmax W U P C L. split.
  - apply (sub_ok sub one m vect true kmin K kmax W U P C L).
  - apply (sub_ok sub one m vect false kmin K kmax W U P C L).
Qed.
Print Assumptions C74_subtract.

(** A vector of another size is refused, whatever the storage. *)
Theorem C74_size :
  forall (F D : Type) (op : F -> F -> D -> F) (one : D) m vect spec kmin K kmax,
  planes m kmin K kmax -> length vect <> (kmax - kmin) * vm_np m ->
  addToVector op one vect spec kmin K m = Throw /\ subtractFromVector op one vect spec kmin K m = Throw.
Proof.
  intros F D op one m vect spec kmin K kmax P L. pose proof (planes_last m kmin K kmax P) as HP.
  assert (E : right_size m vect kmin kmax = false).
  { unfold right_size. apply Nat.eqb_neq in L. rewrite L. apply Bool.andb_false_r. }
  unfold addToVector, subtractFromVector. destruct (vm_img m); unfold addToVector_full, addToVector_sparse, subtractFromVector_full, subtractFromVector_sparse; cbv zeta; rewrite HP, E; split; reflexivity.
Qed.
Print Assumptions C74_size.

Lemma pixelwise_unique {F D} (h : F -> F -> D -> F) fa (a b : vmap F D) zero kmin kmax old va vb :
  (forall o f, h o zero f = o) -> 0 < vm_np a -> same_sky zero a b -> kmax <= vm_ne a -> length old = (kmax - kmin) * vm_np a ->
  pixelwise h fa a kmin kmax old va -> pixelwise h fa b kmin kmax old vb -> va = vb.
Proof.
  intros Z Hp (S1 & S2 & S3 & S4 & S5) Hk HL (L1 & N1) (L2 & N2). apply nth_error_ext; [congruence|]. intros i Hi.
  destruct (split_index (vm_np a) kmin kmax i Hp) as (k & p & Hk' & Hp' & ->); [rewrite <- HL; lia|].
  destruct (N1 k p Hk' Hp') as (o & f & A1 & A2 & A3). rewrite S1 in Hp'. destruct (N2 k p Hk' Hp') as (o' & f' & B1 & B2 & B3).
  rewrite <- S1 in B1, B3. rewrite A3, B3. f_equal. rewrite A1 in B1. rewrite A2 in B2. injection B1 as <-. injection B2 as <-.
  rewrite <- S1 in Hp'. specialize (S5 (k * vm_np a + p) ltac:(nia)).
  destruct (stored_at (vm_img a) _), (stored_at (vm_img b) _); subst; rewrite ?Z; reflexivity.
Qed.

(** The vector does not depend on how the map is stored. *)
Theorem C74_storage :
  forall (F D : Type) (add : F -> F -> D -> F) (one : D) (zero : F) a b vect kmin K kmax,
  (forall o f, add o zero f = o) -> same_sky zero a b -> well_made a -> well_made b -> up_to_date a ->
  planes a kmin K kmax -> clear_end a kmax -> clear_end b kmax -> length vect = (kmax - kmin) * vm_np a ->
  exists v, addToVector add one vect true kmin K a = Ok (v, a) /\ addToVector add one vect true kmin K b = Ok (v, b).
Proof.
  intros F D add one zero a b vect kmin K kmax Z SS Wa Wb U P Ca Cb L. pose proof SS as (S1 & S2 & S3 & S4 & S5).
  destruct (add_ok add one a vect true kmin K kmax Wa U P Ca L ltac:(now left)) as (va & Ea & Pa).
  assert (Ub : up_to_date b) by (unfold up_to_date in *; congruence).
  assert (Pb' : planes b kmin K kmax) by (unfold planes in *; now rewrite <- S2).
  destruct (add_ok add one b vect true kmin K kmax Wb Ub Pb' Cb ltac:(now rewrite <- S1) ltac:(now left)) as (vb & Eb & Pb).
  exists va. split; [exact Ea|]. rewrite Eb. do 2 f_equal. symmetry.
  apply (pixelwise_unique add (factor_of one a true) a b zero kmin kmax vect va vb Z); auto.
  - apply Wa. - apply P.
  - unfold factor_of in *. now rewrite S3.
Qed.
Print Assumptions C74_storage.

Lemma nth_of_error {A} (l : list A) i x d : nth_error l i = Some x -> nth i l d = x.
Proof. intros E. now apply nth_error_nth. Qed.

(** In exact arithmetic subtracting undoes adding. *)
Theorem C74_undo :
  forall m vect kmin K kmax,
  well_made m -> up_to_date m -> planes m kmin K kmax -> clear_end m kmax -> length vect = (kmax - kmin) * vm_np m ->
  exists v, addToVector radd 1%R vect true kmin K m = Ok (v, m) /\ subtractFromVector rsub 1%R v true kmin K m = Ok (vect, m).
Proof.
  intros m vect kmin K kmax W U P C L.
  destruct (add_ok radd 1%R m vect true kmin K kmax W U P C L ltac:(now left)) as (v & E & Lv & N).
  destruct (sub_ok rsub 1%R m v true kmin K kmax W U P C ltac:(congruence)) as (w & E' & Lw & N').
  exists v. split; [exact E|]. rewrite E'. do 2 f_equal. apply nth_error_ext; [congruence|]. intros i Hi.
  destruct (split_index (vm_np m) kmin kmax i ltac:(apply W)) as (k & p & Hk' & Hp' & ->); [rewrite <- L; congruence|].
  destruct (N k p Hk' Hp') as (o & f & A1 & A2 & A3). destruct (N' k p Hk' Hp') as (o' & f' & B1 & B2 & B3).
  rewrite B3, A1. rewrite A3 in B1. rewrite A2 in B2. injection B2 as <-. injection B1 as <-. f_equal.
  unfold radd, rsub. destruct (stored_at (vm_img m) _); lra.
Qed.
Print Assumptions C74_undo.

(** The summed map of several sources is the sum of their maps times their spectra, added to what the vector held. *)
Theorem C74_summed_map :
  forall maps vect np ne kmin K kmax,
  List.Forall (fun m => well_made m /\ up_to_date m /\ clear_end m kmax /\ vm_np m = np /\ vm_ne m = ne /\ planes m kmin K kmax) maps ->
  length vect = (kmax - kmin) * np ->
  exists v, fillSummedSourceMap radd 1%R maps vect kmin K = Ok v /\ length v = length vect /\
    forall k p, kmin <= k < kmax -> p < np ->
      nth ((k - kmin) * np + p) v 0%R = (nth ((k - kmin) * np + p) vect 0 + Rsum (map (fun m => brightness m k p) maps))%R.
Proof.
  intros maps vect np ne kmin K kmax H. unfold fillSummedSourceMap. revert vect. induction H as [|m maps (W & U & C & Hp & He & P) _ IH]; intros vect L.
  - exists vect. cbn. repeat split. intros; lra.
  - cbn [mfold]. destruct (add_ok radd 1%R m vect true kmin K kmax W U P C ltac:(congruence) ltac:(now left)) as (v & E & Lv & N).
    rewrite E. cbn [obind fst]. destruct (IH v ltac:(congruence)) as (w & Ew & Lw & Nw). exists w. split; [exact Ew|]. split; [congruence|].
    intros k p Hk Hp'. rewrite Nw by assumption. rewrite <- Hp in Hp'. destruct (N k p Hk Hp') as (o & f & A1 & A2 & A3). rewrite Hp in *.
    rewrite (nth_of_error _ _ _ _ A3), (nth_of_error _ _ _ _ A1). cbn [map]. unfold Rsum at 2. cbn [fold_right].
    fold (Rsum (map (fun m => brightness m k p) maps)). unfold factor_of in A2. unfold brightness at 2. rewrite Hp.
    rewrite (nth_of_error _ _ _ _ A2). unfold radd. destruct (stored_at (vm_img m) (k * np + p)); lra.
Qed.
Print Assumptions C74_summed_map.

(** The model map of a list of sources, computed into a new vector, is the sum of the predicted counts of the sources;
    it does not matter which of the maps are in memory, and the maps in memory remain. *)
Theorem C74_model_map :
  forall build save_all nb np use_mask srcs c,
  (forall n, In n srcs -> exists s, map_of build c n = Some s /\ sm_ok s /\ sm_nb s = nb /\ sm_np s = np) ->
  exists map c', computeModelMap build save_all (nb * np) use_mask srcs [] c = Ok (map, c') /\ length map = nb * np /\
    (forall n s, cached c n = Some s -> cached c' n = Some s) /\
    (forall n, cached c n = None -> cached c' n <> None -> save_all = true /\ In n srcs) /\
    forall k p, k < nb -> p < np ->
      nth (k * np + p) map 0%R = Rsum (List.map (fun n => match map_of build c n with Some s => seen use_mask s k p | None => 0%R end) srcs).
Proof.
  intros build save_all nb np use_mask srcs c H. destruct (compute_ok build save_all nb np use_mask srcs [] c H) as (m & c' & E & L & C & N).
  exists m, c'. split; [exact E|]. split; [exact L|]. split; [|split].
  - intros n s Hs. rewrite C. unfold map_of. rewrite Hs. now destruct (save_all && existsb (String.eqb n) srcs).
  - intros n Hn. rewrite C, Hn. destruct save_all; cbn [andb]; [|congruence]. destruct (existsb (String.eqb n) srcs) eqn:Q; [|congruence].
    intros _. split; [reflexivity|]. apply existsb_exists in Q. destruct Q as (x & I & Q). apply String.eqb_eq in Q. now subst.
  - intros k p Hk Hp. rewrite N by assumption. unfold vec_resize. rewrite firstn_nil. cbn [app]. rewrite nth_repeat. lra.
Qed.
Print Assumptions C74_model_map.

(** One source: its predicted counts; the memory is as before. *)
Theorem C74_single_map :
  forall build nb np use_mask n s c,
  map_of build c n = Some s -> sm_ok s -> sm_nb s = nb -> sm_np s = np ->
  exists map c', computeModelMap_one build (nb * np) use_mask n [] c = Ok (map, c') /\
    (forall n', cached c' n' = cached c n') /\
    forall k p, k < nb -> p < np -> nth (k * np + p) map 0%R = seen use_mask s k p.
Proof.
  intros build nb np use_mask n s c H OK Hb Hp. rewrite one_is_single.
  destruct (compute_ok build false nb np use_mask [n] [] c) as (m & c' & E & L & C & N).
  { intros n' [<-|[]]. eauto. }
  exists m, c'. split; [exact E|]. split; [intros n'; now rewrite C|].
  intros k p Hk Hp'. rewrite N by assumption. unfold vec_resize. rewrite firstn_nil. cbn [app]. rewrite nth_repeat. cbn. rewrite H. lra.
Qed.
Print Assumptions C74_single_map.

(** The counts spectrum of a source shares out the observed counts in proportion to the predictions. *)
Theorem C74_counts_spectrum :
  forall dc data np nb model s kmin kmax,
  sm_ok s -> sm_nb s = nb -> sm_np s = np -> dc_ok s dc -> kmin <= kmax <= nb -> length data = nb * np -> length model = length (dc_filled dc) ->
  (forall k j, kmin <= k < kmax -> In j (filled dc k) -> nth j model 0%R <> 0%R) ->
  exists sp, countsSpectrum dc data np model s kmin kmax = Ok sp /\ length sp = kmax - kmin /\
    forall k, kmin <= k < kmax -> nth (k - kmin) sp 0%R = share dc data np model s k.
Proof. intros dc data np nb model s kmin kmax. apply spectrum_ok. Qed.
Print Assumptions C74_counts_spectrum.

(** The counts spectra of all the sources of the model add up to the observed counts of each plane. *)
Theorem C74_spectra_add_up :
  forall dc data np nb (ss : list smap) kmin kmax,
  (forall s, In s ss -> sm_ok s /\ sm_nb s = nb /\ sm_np s = np /\ dc_ok s dc) ->
  kmin <= kmax <= nb -> length data = nb * np ->
  exists model, mfold (fun b s => addSourceCounts b s dc false) ss (zeros (length (dc_filled dc))) = Ok model /\
  ((forall k j, kmin <= k < kmax -> In j (filled dc k) -> nth j model 0%R <> 0%R) ->
   exists spectra, List.Forall2 (fun s sp => countsSpectrum dc data np model s kmin kmax = Ok sp) ss spectra /\
   forall k, kmin <= k < kmax ->
     Rsum (map (fun sp => nth (k - kmin) sp 0%R) spectra) = Rsum (map (observed dc data np k) (filled dc k))).
Proof.
  intros dc data np nb ss kmin kmax H HK HD.
  destruct (model_sum dc nb ss (zeros (length (dc_filled dc)))) as (model & E & L & N).
  { intros s Hs. destruct (H s Hs) as (A & B & _ & C). auto. }
  { apply repeat_length. }
  exists model. split; [exact E|]. intros NZ.
  assert (G : forall tt, (forall s, In s tt -> In s ss) -> exists spectra, List.Forall2 (fun s sp => countsSpectrum dc data np model s kmin kmax = Ok sp) tt spectra /\
     forall k, kmin <= k < kmax -> map (fun sp => nth (k - kmin) sp 0%R) spectra = map (fun s => share dc data np model s k) tt).
  { induction tt as [|s tt IH]; intros HT; [exists []; split; [constructor|reflexivity]|].
    destruct IH as (sps & F & M); [intros; apply HT; now right|]. destruct (H s (HT s (or_introl eq_refl))) as (A & B & C & D).
    destruct (spectrum_ok dc data np nb model s kmin kmax A B C D HK HD L NZ) as (sp & Es & Ls & Ns).
    exists (sp :: sps). split; [now constructor|]. intros k Hk. cbn [map]. now rewrite Ns, M. }
  destruct (G ss ltac:(auto)) as (sps & F & M). exists sps. split; [exact F|]. intros k Hk. rewrite M by exact Hk.
  apply shares_sum. intros j Hj. split; [now apply (NZ k j Hk)|].
  rewrite (N k j); [|lia|unfold in_plane, filled in *; apply in_seq in Hj; lia]. unfold zeros. rewrite nth_repeat. lra.
Qed.
Print Assumptions C74_spectra_add_up.

(** Every map in memory is in its file after saving, and a map that was there is replaced only on request;
    everything else in the files is as before. *)
Theorem C74_saved :
  forall (V : Type) (f : files (V := V)) base srcs cache replace i src v,
  nth_error srcs i = Some src -> cache src = Some v ->
  let file := file_of base (length srcs) i in
  let f' := cache_saveSourceMaps f base srcs cache replace in
  (replace = true \/ extension f file src = None -> extension f' file src = Some v) /\
  (replace = false -> extension f file src <> None -> extension f' file src = extension f file src).
Proof.
  intros V f base srcs cache replace i src v Hi Hv file f'. unfold f', cache_saveSourceMaps.
  rewrite loop_is; [|reflexivity|auto].
  destruct (saved_ext base (length srcs) cache replace srcs 0 f file src) as [A B]. split.
  - intros HR. apply (A i v Hi); [reflexivity|exact Hv|tauto].
  - intros R N. apply B. intros a _ _. right. auto.
Qed.
Print Assumptions C74_saved.

Theorem C74_others_kept :
  forall (V : Type) (f : files (V := V)) base srcs cache replace file ext,
  (forall i, nth_error srcs i = Some ext -> cache ext <> None -> file_of base (length srcs) i <> file) ->
  extension (cache_saveSourceMaps f base srcs cache replace) file ext = extension f file ext.
Proof.
  intros V f base srcs cache replace file ext H. unfold cache_saveSourceMaps. rewrite loop_is; [|reflexivity|auto].
  destruct (saved_ext base (length srcs) cache replace srcs 0 f file ext) as [_ B]. apply B. intros a Ha Hf. left.
  destruct (cache ext) eqn:E; [|reflexivity]. exfalso. apply (H a Ha); [congruence|exact Hf].
Qed.
Print Assumptions C74_others_kept.

(** Up to 499 sources: what is saved in a new file is what a later session finds. *)
Theorem C74_found_again :
  forall (V : Type) (f : files (V := V)) old filename counts srcs cache replace i src v,
  nth_error srcs i = Some src -> cache src = Some v -> length srcs <= 499 ->
  filename <> ""%string -> f filename = None -> ~ In src (map fst counts) ->
  let '(f', file) := saveSourceMaps f old filename counts srcs cache replace in
  file = filename /\ found_in_file f' file src = Some v /\
  forall c x, In c (map fst counts) -> ~ In c srcs -> extension (put_file f filename counts) filename c = Some x -> extension f' filename c = Some x.
Proof.
  intros V f old filename counts srcs cache replace i src v Hi Hv Hn Hf Hno Hc. unfold saveSourceMaps.
  replace (filename =? "")%string with false by (symmetry; now apply String.eqb_neq). cbn [negb andb]. rewrite Hno.
  assert (HF : forall a, file_of filename (length srcs) a = filename) by (intros a; unfold file_of; now replace (length srcs <=? 499) with true by (symmetry; now apply Nat.leb_le)).
  split; [reflexivity|]. split.
  - unfold found_in_file.
    destruct (C74_saved V (put_file f filename counts) filename srcs cache replace i src v Hi Hv) as [A _]. rewrite HF in A. apply A.
    right. rewrite ext_put, String.eqb_refl. destruct (find (fun e => (fst e =? src)%string) counts) as [e|] eqn:Fd; [|reflexivity].
    exfalso. apply find_some in Fd. destruct Fd as [I Q]. apply String.eqb_eq in Q. apply Hc. rewrite <- Q. now apply in_map.
  - intros c x _ Hs Hx. rewrite C74_others_kept; [exact Hx|]. intros a Ha. exfalso. apply Hs. now apply nth_error_In in Ha.
Qed.
Print Assumptions C74_found_again.

(** An existing file keeps what is not saved again. *)
Theorem C74_existing_file :
  forall (V : Type) (f : files (V := V)) old filename l counts srcs cache replace,
  filename <> ""%string -> f filename = Some l ->
  let '(f', file) := saveSourceMaps f old filename counts srcs cache replace in
  file = filename /\ forall ext, cache ext = None \/ ~ In ext srcs -> extension f' filename ext = extension f filename ext.
Proof.
  intros V f old filename l counts srcs cache replace Hf Hl. unfold saveSourceMaps.
  replace (filename =? "")%string with false by (symmetry; now apply String.eqb_neq). cbn [negb andb]. rewrite Hl.
  split; [reflexivity|]. intros ext H. apply C74_others_kept. intros i Hi Hc. exfalso.
  destruct H as [H|H]; [congruence|]. apply H. now apply nth_error_In in Hi.
Qed.
Print Assumptions C74_existing_file.

(** ** What fails *)
Definition two_planes (img : pixels R) (src : option (list R)) : vmap R R := mk_vm 1 2 img [1; 1]%R src.

(** A sparse map cannot be added without its spectrum: the call always throws. *)
Theorem C74_plain_sparse_refuted :
  forall (F D : Type) (add : F -> F -> D -> F) (one : D) m l vect kmin K kmax k p x,
  well_made m -> planes m kmin K kmax -> vm_img m = Few l -> length vect = (kmax - kmin) * vm_np m ->
  kmin <= k < kmax -> p < vm_np m -> stored_at (vm_img m) (k * vm_np m + p) = Some x ->
  addToVector add one vect false kmin K m = Throw.
Proof.
  intros F D add one m l vect kmin K kmax k p x W P EI L Hk Hp Hx. pose proof (planes_last m kmin K kmax P) as HP.
  unfold addToVector. rewrite EI. unfold addToVector_sparse. cbv zeta. rewrite HP, size_ok by (lia || exact L). cbn [negb].
  unfold sparse_loop. rewrite EI in Hx. cbn in Hx. destruct (find _ l) as [e|] eqn:Fd; [|discriminate]. apply find_some in Fd. destruct Fd as [I Q]. apply Nat.eqb_eq in Q.
  destruct (window l (kmin * vm_np m) (kmax * vm_np m)) as [|e0 es] eqn:Ew.
  - exfalso. assert (In e (window l (kmin * vm_np m) (kmax * vm_np m))); [|now rewrite Ew in H].
    apply filter_In. split; [exact I|]. apply andb_true_intro. rewrite Q. split; apply Nat.leb_le; nia.
  - cbn [mfold]. reflexivity.
Qed.
Print Assumptions C74_plain_sparse_refuted.

(** A sparse map with a value in the first pixel after the planes asked for: the write is outside the vector. *)
Theorem C74_edge_refuted :
  exists m vect kmin kmax, well_made m /\ up_to_date m /\ planes m kmin (Z.of_nat kmax) kmax /\ length vect = (kmax - kmin) * vm_np m /\
    addToVector radd 1%R vect true kmin (Z.of_nat kmax) m = UB /\ subtractFromVector rsub 1%R vect true kmin (Z.of_nat kmax) m = UB.
Proof.
  exists (two_planes (Few [(1, 5%R)]) (Some [1; 1]%R)), [0%R], 0, 1. split; [|split; [reflexivity|split; [|split; [reflexivity|]]]].
  - split; [cbn; lia|]. split; [reflexivity|]. cbn. split; repeat constructor.
  - split; [cbn; lia|now left].
  - split; reflexivity.
Qed.
Print Assumptions C74_edge_refuted.

(** After a change of parameters adding uses the old spectrum (full maps) or subtracting does (sparse maps), so
    subtracting does not undo adding. *)
Theorem C74_stale_refuted :
  exists full sparse v w v' w', well_made full /\ well_made sparse /\ same_sky 0%R full sparse /\ ~ up_to_date full /\
    addToVector radd 1%R [0; 0]%R true 0 (-1)%Z full = Ok (v, full) /\
    (exists full', subtractFromVector rsub 1%R v true 0 (-1)%Z full = Ok (w, full')) /\ w <> [0; 0]%R /\
    (exists sparse', addToVector radd 1%R [0; 0]%R true 0 (-1)%Z sparse = Ok (v', sparse')) /\ v' <> v /\
    (subtractFromVector rsub 1%R v true 0 (-1)%Z sparse = Ok (w', sparse) /\ w' <> w).
Proof.
  exists (two_planes (Whole [5; 5]%R) (Some [3; 3]%R)), (two_planes (Few [(0, 5%R); (1, 5%R)]) (Some [3; 3]%R)).
  exists [0 + 5 * 1; 0 + 5 * 1]%R, [0 + 5 * 1 - 5 * 3; 0 + 5 * 1 - 5 * 3]%R, [0 + 5 * 3; 0 + 5 * 3]%R, [0 + 5 * 1 - 5 * 1; 0 + 5 * 1 - 5 * 1]%R.
  split; [|split; [|split; [|split; [|split; [|split; [|split; [|split; [|split; [|split]]]]]]]]].
  - split; [cbn; lia|]. split; reflexivity.
  - split; [cbn; lia|]. split; [reflexivity|]. cbn. split; repeat constructor.
  - repeat split. intros [|[|i]] Hi; cbn in *; try lia; reflexivity.
  - unfold up_to_date. cbn. intros E. injection E. lra.
  - reflexivity.
  - eexists. reflexivity.
  - intros E. injection E. lra.
  - eexists. reflexivity.
  - intros E. injection E. lra.
  - reflexivity.
  - intros E. injection E. lra.
Qed.
Print Assumptions C74_stale_refuted.

(** A vector that already has the right size keeps its contents: computing the same map into it twice yields twice the counts. *)
Theorem C74_twice_refuted :
  forall build save_all nb np use_mask srcs c,
  (forall n, In n srcs -> exists s, map_of build c n = Some s /\ sm_ok s /\ sm_nb s = nb /\ sm_np s = np) ->
  exists map c1 map2 c2, computeModelMap build save_all (nb * np) use_mask srcs [] c = Ok (map, c1) /\
    computeModelMap build save_all (nb * np) use_mask srcs map c = Ok (map2, c2) /\
    forall k p, k < nb -> p < np -> nth (k * np + p) map2 0%R = (2 * nth (k * np + p) map 0)%R.
Proof.
  intros build save_all nb np use_mask srcs c H.
  destruct (compute_ok build save_all nb np use_mask srcs [] c H) as (m & c1 & E & L & C & N).
  destruct (compute_ok build save_all nb np use_mask srcs m c H) as (m2 & c2 & E2 & L2 & C2 & N2).
  exists m, c1, m2, c2. split; [exact E|]. split; [exact E2|]. intros k p Hk Hp. rewrite N2 by assumption.
  rewrite N by assumption. unfold vec_resize. rewrite L, firstn_all2, Nat.sub_diag by lia. cbn [repeat]. rewrite app_nil_r.
  rewrite N by assumption. unfold vec_resize. rewrite firstn_nil. cbn [app]. rewrite nth_repeat. lra.
Qed.
Print Assumptions C74_twice_refuted.

(** One source: the map that was made is thrown away even when all maps are to be kept; the list version keeps it. *)
Theorem C74_kept_refuted :
  exists build n s, build n = Some s /\ sm_ok s /\
    (exists map c, computeModelMap_one build (sm_nb s * sm_np s) false n [] [] = Ok (map, c) /\ cached c n = None) /\
    (exists map c, computeModelMap build true (sm_nb s * sm_np s) false [n] [] [] = Ok (map, c) /\ cached c n = Some s).
Proof.
  set (s := exm 0 [(1%R, (-1)%Z); (1%R, (-1)%Z)] (Full [1; 2; 3]%R)).
  assert (OK : sm_ok s) by (apply exm_ok; [lia|reflexivity|split; [reflexivity|repeat constructor]]).
  exists (fun _ => Some s), "a"%string, s. split; [reflexivity|]. split; [exact OK|]. split.
  - destruct (C74_single_map (fun _ => Some s) (sm_nb s) (sm_np s) false "a"%string s [] eq_refl OK eq_refl eq_refl) as (m & c & E & C & _).
    exists m, c. split; [exact E|]. now rewrite C.
  - destruct (compute_ok (fun _ => Some s) true (sm_nb s) (sm_np s) false ["a"%string] [] []) as (m & c & E & _ & C & _).
    { intros n [<-|[]]. exists s. auto. }
    exists m, c. split; [exact E|]. now rewrite C.
Qed.
Print Assumptions C74_kept_refuted.

(** The map of a point source, when point sources are not computed and the file does not hold it: a null pointer is used. *)
Theorem C74_uncomputed_refuted :
  forall build save_all size use_mask n srcs c, cached c n = None -> build n = None ->
  computeModelMap_one build size use_mask n [] c = UB /\ computeModelMap build save_all size use_mask (n :: srcs) [] c = UB.
Proof.
  intros build save_all size use_mask n srcs c Hc Hb. unfold computeModelMap_one, computeModelMap. cbn [mfold fst snd].
  unfold getSourceMap. rewrite Hc, Hb. split; reflexivity.
Qed.
Print Assumptions C74_uncomputed_refuted.

(** The counts spectrum over all the planes, when the fit is restricted to some of them: the model of the other planes is zero,
    and the quotients are no numbers. *)
Theorem C74_outside_refuted :
  exists dc data s model m_kmin m_kmax kmin kmax,
    sm_ok s /\ dc_ok s dc /\ length data = sm_nb s * sm_np s /\
    (forall k j, m_kmin <= k < m_kmax -> In j (filled dc k) -> nth j model 0%R = counts_at s (sm_spec s) k (nth j (dc_filled dc) 0)) /\
    (exists sp, countsSpectrum dc data (sm_np s) model s m_kmin m_kmax = Ok sp) /\
    spectrum_range false m_kmin m_kmax (sm_nb s) = (kmin, kmax) /\
    countsSpectrum dc data (sm_np s) model s kmin kmax = UB.
Proof.
  set (s := exm 0 [(1%R, (-1)%Z); (1%R, (-1)%Z)] (Full [1; 2; 3]%R)).
  assert (OK : sm_ok s) by (apply exm_ok; [lia|reflexivity|split; [reflexivity|repeat constructor]]).
  set (dc := mk_dc [0; 0] [0; 1; 2]).
  assert (DC : dc_ok s dc) by (split; [reflexivity|]; split; [reflexivity|]; split; [reflexivity|]; split; [intros [|[|k]] Hk; simpl in *; lia|]; repeat constructor).
  assert (C1 : counts_at s (sm_spec s) 1 0 = 5%R) by (unfold s, counts_at, response, bin_counts, plane, pix, Rsum; simpl; lra).
  exists dc, [4; 6]%R, s, [0; 5]%R, 1, 2, 0, 2. split; [exact OK|]. split; [exact DC|]. split; [reflexivity|].
  assert (HM : forall k j, 1 <= k < 2 -> In j (filled dc k) -> nth j [0; 5]%R 0%R = counts_at s (sm_spec s) k (nth j (dc_filled dc) 0)).
  { intros k j Hk Hj. assert (k = 1) by lia. subst k. cbn in Hj. destruct Hj as [<-|[]]. cbn [nth dc dc_filled]. now rewrite C1. }
  split; [exact HM|]. split; [|split; [reflexivity|]].
  - destruct (spectrum_ok dc [4; 6]%R 1 2 [0; 5]%R s 1 2 OK eq_refl eq_refl DC ltac:(lia) eq_refl eq_refl) as (sp & E & _); [|eauto].
    intros k j Hk Hj. rewrite (HM k j Hk Hj). assert (k = 1) by lia. subst k. cbn in Hj. destruct Hj as [<-|[]]. cbn [nth dc dc_filled]. rewrite C1. lra.
  - unfold countsSpectrum. destruct (addSourceCounts_ok s OK dc DC (zeros (length (dc_filled dc))) false eq_refl) as (cnt & E & L & _). unfold zeros in E. rewrite E. cbn [obind].
    change (seq 0 (2 - 0)) with [0; 1]. cbn [mfold]. unfold vec_get at 1. cbn [nth_error dc dc_first obind]. unfold vec_get at 1. cbn [nth_error dc dc_first obind Nat.sub seq mfold].
    rewrite (vec_get_ok cnt 0 0%R) by (rewrite L; cbn; lia). cbn [obind]. unfold vec_get at 1. cbn [nth_error obind].
    destruct (Reqb_spec 0 0) as [_|Q]; [reflexivity|]. exfalso. now apply Q.
Qed.
Print Assumptions C74_outside_refuted.

(** More than 499 sources: none of the maps is saved in the file in which the program looks for them. *)
Theorem C74_split_refuted :
  forall (V : Type) (f : files (V := V)) base srcs cache replace src,
  499 < length srcs -> found_in_file (cache_saveSourceMaps f base srcs cache replace) base src = found_in_file f base src.
Proof.
  intros V f base srcs cache replace src Hn. apply C74_others_kept. intros i _ _ E. unfold file_of in E.
  replace (length srcs <=? 499) with false in E by (symmetry; apply Nat.leb_gt; lia).
  assert (A : forall a b, String.length (a ++ b)%string = String.length a + String.length b) by (induction a; intros b; cbn; [reflexivity|]; now rewrite IHa).
  apply (f_equal String.length) in E. rewrite !A in E. cbn in E. lia.
Qed.
Print Assumptions C74_split_refuted.

(** Saving under the name in use, given as the empty name, overwrites the file: maps saved before that are not in memory are lost. *)
Theorem C74_overwritten_refuted :
  forall (V : Type) (f : files (V := V)) file counts srcs cache replace src,
  cache src = None -> ~ In src (map fst counts) ->
  found_in_file (fst (saveSourceMaps f file ""%string counts srcs cache replace)) file src = None.
Proof.
  intros V f file counts srcs cache replace src Hc Hn. unfold saveSourceMaps. cbn [String.eqb negb andb fst]. unfold found_in_file.
  rewrite C74_others_kept; [|intros; congruence]. rewrite ext_put, String.eqb_refl.
  destruct (find (fun e => (fst e =? src)%string) counts) as [e|] eqn:Fd; [|reflexivity].
  exfalso. apply find_some in Fd. destruct Fd as [I Q]. apply String.eqb_eq in Q. apply Hn. rewrite <- Q. now apply in_map.
Qed.
Print Assumptions C74_overwritten_refuted.

(** ** Cases *)
Example C74_case_vectors :
  let m := mk_vm 2 3 (Few [(1, 5%R); (2, 7%R)]) [1; 2; 3]%R (Some [1; 2; 3]%R) in
  well_made m /\ up_to_date m /\ planes m 1 3 3 /\ planes m 1 (-1) 3 /\ clear_end m 3 /\ brightness m 1 0 = 14%R /\ brightness m 1 1 = 0%R.
Proof.
  intros m. split; [split; [cbn; lia|]; split; [reflexivity|]; cbn; split; repeat constructor; lia|]. split; [reflexivity|].
  split; [split; [cbn; lia|left; reflexivity]|]. split; [split; [cbn; lia|right; split; [lia|reflexivity]]|].
  split; [cbn; intuition lia|]. unfold brightness. cbn. lra.
Qed.
Example C74_case_storage :
  let a := mk_vm 1 2 (Few [(1, 5%R)]) [1; 2]%R (Some [1; 2]%R) in
  let b := mk_vm 1 2 (Whole [0; 5]%R) [1; 2]%R (Some [1; 2]%R) in
  same_sky 0%R a b /\ well_made b /\ clear_end a 2 /\ (forall o f, radd o 0 f = o).
Proof.
  intros a b. split; [repeat split; intros [|[|i]] Hi; cbn in *; try lia; reflexivity|]. split; [split; [cbn; lia|split; reflexivity]|].
  split; [cbn; intuition lia|]. intros; unfold radd; lra.
Qed.
Example C74_case_files :
  let cache := fun n => if (n =? "b")%string then Some 7 else None in
  let f : files := put_file (fun _ => None) "maps" [("PRIMARY", 1); ("a", 3)]%string in
  cache_saveSourceMaps f "maps" ["a"; "b"]%string cache false "maps"%string = Some [("PRIMARY", 1); ("a", 3); ("b", 7)]%string /\
  file_of "maps" 600 599 = "maps_1.fits"%string /\ file_of "maps" 600 499 = "maps_0.fits"%string.
Proof. split; [|split]; vm_compute; reflexivity. Qed.
Example C74_case_spectra :
  let s := exm 0 [(1%R, (-1)%Z); (1%R, (-1)%Z)] (Full [1; 2; 3]%R) in
  let dc := mk_dc [0; 0] [0; 1; 2] in
  sm_ok s /\ dc_ok s dc /\ filled dc 1 = [1] /\ (forall k j, 0 <= k < 2 -> In j (filled dc k) -> nth j [3; 10]%R 0%R <> 0%R) /\
  share dc [4; 6]%R 1 [3; 10]%R s 1 = 3%R.
Proof.
  intros s dc. split; [apply exm_ok; [lia|reflexivity|split; [reflexivity|repeat constructor]]|].
  split; [split; [reflexivity|]; split; [reflexivity|]; split; [reflexivity|]; split; [intros [|[|k]] Hk; simpl in *; lia|]; repeat constructor|].
  split; [reflexivity|]. split; [intros [|[|k]] j Hk; cbn; intuition (subst; cbn in *; lra || lia)|].
  unfold share, observed, filled, s, counts_at, response, bin_counts, plane, pix, Rsum. cbn. lra.
Qed.

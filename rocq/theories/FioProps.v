(** C83/C183: what is written to a file is what is read back. *)
From Coq Require Import Reals Lra List Bool Arith String Lia.
From Verif Require Import Base AccumModel SparseModel DrmModel FioModel FioSpec FioProofs.
Import ListNotations.
Local Open Scope string_scope.
Local Open Scope list_scope.
Local Open Scope nat_scope.

(** ** C83 *)
(** A HEALPix map of [n] planes is read back, with the pixel numbers of a part of the sky beside it, whatever the energy of
    its first plane. *)
Theorem C83_dense_round_trip (T : Type) (zero : T) npix pix data n kmin : length data = n * npix -> (forall p, pix = Some p -> length p = npix) ->
  exists t, append_healpix zero npix pix data kmin (kmin + n) = Ok t /\ read_dense t = (data, n) /\ (forall p, pix = Some p -> In (Pix, p) (t_cols t)).
Proof. apply dense_round_trip. Qed.
Print Assumptions C83_dense_round_trip.
Example C83_dense_case : exists t, append_healpix 0 2 (Some [7; 9]) [1; 2; 3; 4; 5; 6] 2 5 = Ok t /\ read_dense t = ([1; 2; 3; 4; 5; 6], 3) /\ t_cols t = [(Pix, [7; 9]); (Channel 1, [1; 2]); (Channel 2, [3; 4]); (Channel 3, [5; 6])].
Proof. eexists. split; [vm_compute; reflexivity|]. split; reflexivity. Qed.

(** Written over a map with as many planes or fewer, nothing of the old map is left. *)
Theorem C83_dense_replace (T : Type) (zero : T) npix pix data1 n1 k1 data2 n2 k2 t : length data1 = n1 * npix -> length data2 = n2 * npix -> (forall p, pix = Some p -> length p = npix) -> n1 <= n2 ->
  append_healpix zero npix pix data1 k1 (k1 + n1) = Ok t -> exists t', replace_healpix zero t npix pix data2 k2 (k2 + n2) = Ok t' /\ read_dense t' = (data2, n2).
Proof. apply dense_replace. Qed.
Print Assumptions C83_dense_replace.
Example C83_dense_replace_case : exists t t', append_healpix 0 2 None [1; 2] 0 1 = Ok t /\ replace_healpix 0 t 2 None [3; 4; 5; 6] 0 2 = Ok t' /\ read_dense t' = ([3; 4; 5; 6], 2).
Proof. eexists. eexists. split; [vm_compute; reflexivity|]. split; [vm_compute; reflexivity|]. reflexivity. Qed.

(** A map in the pixels of an image: all planes, or those asked for when the map has all of them. *)
Theorem C83_wcs (T : Type) (zero : T) npix ndata data kmin n :
  (n = ndata -> length data = n * npix -> exists im, append_wcs zero npix ndata data kmin (kmin + n) = Ok im /\ read_image im = (data, n)) /\
  (n <> ndata -> (kmin + n) * npix <= length data -> exists im, append_wcs zero npix ndata data kmin (kmin + n) = Ok im /\ read_image im = (planes npix data kmin n, n)).
Proof. split; [intros <-; apply wcs_whole|intros H L; now apply wcs_part]. Qed.
Print Assumptions C83_wcs.
(** A part of a map replaces an image whatever its number of planes was. *)
Theorem C83_wcs_replace (T : Type) npix ndata (data : list T) kmin n im : n <> ndata -> (kmin + n) * npix <= length data ->
  exists im', replace_wcs im npix ndata data kmin (kmin + n) = Ok im' /\ read_image im' = (planes npix data kmin n, n).
Proof.
  intros Hn L. unfold replace_wcs. replace (kmin + n - kmin) with n by lia. apply Nat.eqb_neq in Hn. rewrite Hn. unfold slice. destruct (Nat.ltb_spec (length data) (kmin * npix + n * npix)) as [X|_]; [nia|]. cbn [obind]. eexists. split; reflexivity.
Qed.
Print Assumptions C83_wcs_replace.
Example C83_wcs_case : exists im, append_wcs 0 2 3 [1; 2; 3; 4; 5; 6] 1 3 = Ok im /\ read_image im = ([3; 4; 5; 6], 2).
Proof. eexists. split; [vm_compute; reflexivity|]. reflexivity. Qed.

(** A sparse map with no entry above the energies of the counts map is read back. *)
Theorem C83_sparse_round_trip (T : Type) (zero : T) npix ndata (v : sv T) kmin kmax : 0 < npix -> (forall k x, In (k, x) (sv_data v) -> k < ndata * npix) ->
  exists t, append_sparse npix ndata v kmin kmax = Ok t /\ forall w, sv_size w = sv_size v -> sv_null w = sv_null v -> read_sparse zero t npix w = Ok (v, kmax - kmin).
Proof.
  intros Hn H. destruct (sparse_round_trip zero npix ndata v kmin kmax v Hn H) as (t & E & _). exists t. split; [exact E|]. intros w Hs Hz. destruct (sparse_round_trip zero npix ndata v kmin kmax w Hn H) as (t' & E' & R). rewrite E in E'. injection E' as <-. rewrite R, Hs, Hz. now destruct v.
Qed.
Print Assumptions C83_sparse_round_trip.
(** One that has such an entry is refused, over an old table too. *)
Theorem C83_sparse_outside (T : Type) npix ndata (v : sv T) kmin kmax t k x : 0 < npix -> In (k, x) (sv_data v) -> ndata * npix <= k -> replace_sparse t npix ndata v kmin kmax = Throw.
Proof. apply sparse_outside. Qed.
Print Assumptions C83_sparse_outside.
Example C83_sparse_case : exists t, append_sparse 4 3 (mk_sv 12 0 [(1, 5); (6, 7); (11, 8)]) 0 3 = Ok t /\ s_rows t = [Some (1, 0, 5); Some (2, 1, 7); Some (3, 2, 8)] /\ read_sparse 0 t 4 (mk_sv 12 0 []) = Ok (mk_sv 12 0 [(1, 5); (6, 7); (11, 8)], 3).
Proof. eexists. split; [vm_compute; reflexivity|]. split; reflexivity. Qed.

(** Reading a sparse map raises an exception exactly if more than ten rows cannot be read. *)
Theorem C83_sparse_unreadable (T : Type) (zero : T) (t : @stable T) npix w :
  (read_sparse zero t npix w = Throw <-> 10 < length (filter (fun r => match r with None => true | _ => false end) (s_rows t))) /\ read_sparse zero t npix w <> UB.
Proof.
  unfold read_sparse. destruct (sparse_unreadable zero npix (s_rows t) 0 ltac:(lia)) as (I1 & I2). unfold unreadable in I1. cbn [Nat.add] in I1.
  destruct (sparse_rows zero npix 0 (s_rows t)); cbn [obind]; split; try congruence; rewrite <- I1; split; congruence.
Qed.
Print Assumptions C83_sparse_unreadable.
Example C83_sparse_unreadable_case : read_sparse 0 (mk_stable 1 (repeat None 11)) 4 (mk_sv 4 0 []) = Throw /\ read_sparse 0 (mk_stable 1 [Some (1, 0, 3)]) 4 (mk_sv 4 0 []) = Ok (mk_sv 4 0 [(1, 3)], 1).
Proof. split; reflexivity. Qed.

(** The edges of contiguous energy bins, in MeV. *)
Theorem C83_ebounds (es : list R) : 2 <= length es -> read_ebounds (bins_of es) = Ok (map (fun e => (e / 1000)%R) es).
Proof. apply ebounds_ok. Qed.
Print Assumptions C83_ebounds.
Example C83_ebounds_case : exists l, read_ebounds [(1000, 2000); (2000, 4000)]%R = Ok l /\ l = [1; 2; 4]%R.
Proof. eexists. split; [reflexivity|]. cbn. repeat f_equal; lra. Qed.

(** A response matrix made with one energy added at each end: its energies and rows are read back. *)
Theorem C83_drm d lo hi rows : dr_eb d = 1 -> 2 <= length (dr_en d) -> length (dr_mat d) = dr_ntrue d -> (forall row, In row (dr_mat d) -> length row = dr_nmeas d) ->
  write_drm d (lo :: dr_en d ++ [hi]) = Ok rows -> exists d' t, read_drm rows = Ok (d', t) /\ dr_en d' = dr_en d /\ dr_mat d' = dr_mat d.
Proof. intros H1 H2 H3 H4 H5. destruct (drm_back d lo hi rows H1 H2 H3 H4 H5) as (t & E). exists (mk_drm (dr_en d) 0 (dr_mat d)), t. split; [exact E|]. split; reflexivity. Qed.
Print Assumptions C83_drm.
(** The table: one row for each true bin, with its edges and its row of the matrix. *)
Theorem C83_drm_table d full : length full = dr_ntrue d + 1 -> length (dr_mat d) = dr_ntrue d ->
  exists rows, write_drm d full = Ok rows /\ map fst rows = bins_of full /\ map snd rows = dr_mat d.
Proof.
  intros L1 L2. eexists. split; [apply write_drm_ok; assumption|]. rewrite !map_map. cbn [fst snd]. split.
  - unfold bins_of. rewrite <- (firstn_all (combine full (tl full))). apply (list_ext_nth _ _ (0, 0)%R).
    + rewrite map_length, seq_length, firstn_all, combine_length. destruct full; cbn [length tl] in *; lia.
    + intros i Hi. rewrite map_length, seq_length in Hi. rewrite firstn_all.
      rewrite (nth_indep (map _ _) (0, 0)%R (nth 0 full 0%R, nth (0 + 1) full 0%R)) by (rewrite map_length, seq_length; exact Hi).
      rewrite (map_nth (fun k => (nth k full 0%R, nth (k + 1) full 0%R))), seq_nth by exact Hi. cbn [Nat.add].
      assert (K : forall (l m : list R) k, k < length l -> k < length m -> nth k (combine l m) (0, 0)%R = (nth k l 0%R, nth k m 0%R)).
      { induction l as [|a l IH]; intros [|b m] [|k] Ha Hb; cbn in *; try lia; [reflexivity|]. apply IH; lia. }
      rewrite K by (destruct full; cbn [length tl] in *; lia). f_equal. destruct full as [|a full]; [cbn [length] in L1; lia|]. cbn [tl]. replace (i + 1) with (S i) by lia. reflexivity.
  - rewrite <- L2. apply (list_ext_nth _ _ []).
    + now rewrite map_length, seq_length.
    + intros i Hi. rewrite map_length, seq_length in Hi. rewrite (nth_indep (map _ _) [] (nth 0 (dr_mat d) [])) by (rewrite map_length, seq_length; exact Hi). rewrite (map_nth (fun k => nth k (dr_mat d) [])). now rewrite seq_nth.
Qed.
Print Assumptions C83_drm_table.
Example C83_drm_case : exists rows d t, write_drm (mk_drm [2; 4] 1 [[1]; [2]; [3]])%R [1; 2; 4; 8]%R = Ok rows /\ read_drm rows = Ok (d, t) /\ dr_en d = [2; 4]%R /\ dr_mat d = [[1]; [2]; [3]]%R.
Proof. do 3 eexists. split; [reflexivity|]. split; [reflexivity|]. split; reflexivity. Qed.

(** The table of parameters: one row for each parameter of each source, as it is. *)
Theorem C83_parameters m r : names_fit m -> (In r (write_params m) <-> exists s f ps n p, In (s, (f, ps)) m /\ In (n, p) ps /\ r = row_of s f n p).
Proof. apply params_written. Qed.
Print Assumptions C83_parameters.
Theorem C83_parameters_count m : length (write_params m) = fold_right Nat.add 0 (map (fun s => length (snd (snd s))) m).
Proof. unfold write_params. induction m as [|s m IH]; [reflexivity|]. cbn [map concat fold_right]. now rewrite app_length, map_length, IH. Qed.
Print Assumptions C83_parameters_count.
Definition one_par : par := mk_par 1 1 0 true 0 10.
Definition crab : model := [("Crab", ("PowerLaw", [("Prefactor", one_par); ("Index", one_par)]))].
Example C83_parameters_case : names_fit crab /\ write_params crab = [row_of "Crab" "PowerLaw" "Prefactor" one_par; row_of "Crab" "PowerLaw" "Index" one_par].
Proof.
  split; [|reflexivity]. intros s f ps [I|[]]. injection I as <- <- <-. unfold fits. cbn. split; [lia|]. split; [lia|]. intros n p [I|[I|[]]]; injection I as <- <-; cbn; lia.
Qed.

(** ** C183 *)
(** A partial map, that has only the planes from [kmin], cannot be saved in an image: planes beyond its end are copied. *)
Theorem C83_wcs_partial_map_refuted (T : Type) (zero : T) npix ndata data kmin n : 0 < npix -> 0 < kmin -> n <> ndata -> length data = n * npix ->
  append_wcs zero npix ndata data kmin (kmin + n) = UB.
Proof. intros Hp Hk Hn L. apply wcs_short; [exact Hn|]. rewrite L. nia. Qed.
Print Assumptions C83_wcs_partial_map_refuted.

(** A map written over one with more planes, of the same pixels, is read back with the last planes of the old one. *)
Theorem C83_dense_stale_refuted : ~ forall (data1 data2 : list nat) n1 n2 npix t t', length data1 = n1 * npix -> length data2 = n2 * npix ->
  append_healpix 0 npix None data1 0 n1 = Ok t -> replace_healpix 0 t npix None data2 0 n2 = Ok t' -> read_dense t' = (data2, n2).
Proof. intros H. specialize (H [1; 2; 3; 4] [8; 9] 2 1 2 _ _ eq_refl eq_refl eq_refl eq_refl). vm_compute in H. discriminate. Qed.
Print Assumptions C83_dense_stale_refuted.

(** So is a sparse map over one with more entries; a look-up then searches keys that are not sorted. *)
Theorem C83_sparse_stale_refuted : exists (v1 v2 : sv nat) t t' w n k x, append_sparse 4 3 v1 0 3 = Ok t /\ replace_sparse t 4 3 v2 0 3 = Ok t' /\ read_sparse 0 t' 4 v2 = Ok (w, n) /\
  sv_get v2 k = Ok x /\ sv_get w k <> Ok x /\ exists j, sv_get v2 j = Ok 0 /\ sv_get w j = UB.
Proof.
  exists (mk_sv 12 0 [(1, 5); (2, 7); (3, 8)]), (mk_sv 12 0 [(6, 4)]). do 2 eexists. exists (mk_sv 12 0 [(6, 4); (2, 7); (3, 8)]), 3, 6, 4.
  split; [vm_compute; reflexivity|]. split; [vm_compute; reflexivity|]. split; [reflexivity|]. split; [reflexivity|]. split; [vm_compute; discriminate|]. exists 5. split; reflexivity.
Qed.
Print Assumptions C83_sparse_stale_refuted.
(** A sparse source map with the planes added for the energy dispersion is not written. *)
Theorem C83_sparse_edisp_refuted (T : Type) npix ndata nplanes (v : sv T) k x : 0 < npix -> ndata * npix <= k < nplanes * npix -> In (k, x) (sv_data v) -> append_sparse npix ndata v 0 nplanes = Throw.
Proof. intros Hn Hk I. apply (sparse_outside npix ndata v 0 nplanes _ k x Hn I). lia. Qed.
Print Assumptions C83_sparse_edisp_refuted.
(** A row that cannot be read becomes an entry of the first pixel, out of order: the others are not found any more. *)
Theorem C83_sparse_unreadable_refuted : exists w, read_sparse 0 (mk_stable 3 [Some (1, 0, 5); None; Some (3, 0, 8)]) 4 (mk_sv 12 0 []) = Ok (w, 3) /\ sv_get w 1 = UB.
Proof. eexists. split; [reflexivity|]. reflexivity. Qed.
Print Assumptions C83_sparse_unreadable_refuted.

(** A table of energies without rows; bins that are not contiguous. *)
Theorem C83_ebounds_refuted : read_ebounds [] = UB /\ exists l, read_ebounds [(1000, 2000); (3000, 4000)]%R = Ok l /\ ~ In 2%R l.
Proof. split; [reflexivity|]. eexists. split; [reflexivity|]. cbn. intros H. decompose [or] H; lra. Qed.
Print Assumptions C83_ebounds_refuted.

(** The matrix that is read has no added energies: counts are folded with the rows of other true bins. *)
Theorem C83_drm_refuted : exists d rows d' t c y y', dr_eb d = 1 /\ write_drm d [1; 2; 4; 8]%R = Ok rows /\ read_drm rows = Ok (d', t) /\ dr_ntrue d' <> dr_ntrue d /\
  DrmModel.convolve d' [c] = Ok [y'] /\ DrmModel.convolve (mk_drm (dr_en d) 0 [[1]])%R [c] = Ok [y] /\ dr_mat d = [[0]; [1]; [0]]%R /\ y = c /\ y' <> c.
Proof.
  exists (mk_drm [2; 4] 1 [[0]; [1]; [0]])%R. do 3 eexists. exists 1%R. do 2 eexists. split; [reflexivity|]. split; [reflexivity|]. split; [reflexivity|]. split; [vm_compute; discriminate|]. split; [reflexivity|]. split; [reflexivity|]. split; [reflexivity|]. split; [lra|lra].
Qed.
Print Assumptions C83_drm_refuted.
(** With no added energies the ends of the range are lost; with two at each end the columns of the matrix are too short. *)
Theorem C83_drm_edges_refuted :
  (exists rows d t, write_drm (mk_drm [1; 2; 4; 8; 16] 0 [[1; 0; 0; 0]; [0; 1; 0; 0]; [0; 0; 1; 0]; [0; 0; 0; 1]])%R [1; 2; 4; 8; 16]%R = Ok rows /\ read_drm rows = Ok (d, t) /\ dr_en d = [2; 4; 8]%R) /\
  (exists rows, write_drm (mk_drm [4; 8] 2 [[0]; [0]; [1]; [0]; [0]])%R [1; 2; 4; 8; 16; 32]%R = Ok rows /\ read_drm rows = UB) /\
  (forall lo hi row, read_drm [(lo, hi, row)] = UB).
Proof. split; [do 3 eexists; split; [reflexivity|]; split; reflexivity|]. split; [eexists; split; reflexivity|]. reflexivity. Qed.
Print Assumptions C83_drm_edges_refuted.

(** A table of parameters cannot be read into the model it was written from. *)
Theorem C83_parameters_back_refuted m : names_fit m -> (forall s f ps, In (s, (f, ps)) m -> f <> "Spectrum") -> (exists s f n p ps, In (s, (f, ps)) m /\ In (n, p) ps) ->
  read_params (write_params m) m = Throw.
Proof. apply params_throw. Qed.
Print Assumptions C83_parameters_back_refuted.
Example C183_parameters_back_case : read_params (write_params crab) crab = Throw.
Proof. reflexivity. Qed.
(** Not even a model whose functions are called as the model calls them: the name of the parameter is taken for the source. *)
Theorem C83_parameters_swapped_refuted : exists m r, r = row_of "Crab" "Spectrum" "Index" one_par /\ m = [("Crab", ("Spectrum", [("Index", one_par)]))] /\ write_params m = [r] /\ getParam m "Index" "Spectrum" "Crab" = Ok one_par /\ read_params [r] m = Throw.
Proof. do 2 eexists. split; [reflexivity|]. split; [reflexivity|]. split; [reflexivity|]. split; reflexivity. Qed.
Print Assumptions C83_parameters_swapped_refuted.
(** Sources whose names begin with the same 32 characters have the same rows. *)
Theorem C83_long_names_refuted : exists s1 s2 f ps, s1 <> s2 /\ ps <> [] /\ write_params [(s1, (f, ps))] = write_params [(s2, (f, ps))].
Proof.
  exists "a_source_with_a_rather_long_name_one", "a_source_with_a_rather_long_name_two", "PowerLaw", [("Index", one_par)]. split; [discriminate|]. split; [discriminate|]. reflexivity.
Qed.
Print Assumptions C83_long_names_refuted.

(** Writing a HEALPix map as a weights map deletes its table twice. *)
Theorem C83_weights_map_refuted : writeAsWeightsMap = UB.
Proof. reflexivity. Qed.
Print Assumptions C83_weights_map_refuted.

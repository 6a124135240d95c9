(** Proofs about model maps, counts spectra and files of source maps. *)
From Coq Require Import Reals String DecimalString Lra.
From Verif Require Import Base AccumModel AccumProofs SmapModel SmapSpec SmapProofs SmapNpred VmapModel VmapSpec PsfuProofs VmapProofs.
Local Open Scope nat_scope.
Local Open Scope list_scope.

(** ** Model maps *)
Section MM.
  Context (build : string -> option smap).

  Lemma cached_cons (c : cache) n s n' : cached ((n, s) :: c) n' = if (n =? n')%string then Some s else cached c n'.
  Proof. unfold cached. cbn. destruct (n =? n')%string; reflexivity. Qed.
  Lemma cached_erase (c : cache) n n' : cached (eraseSourceMap c n) n' = if (n =? n')%string then None else cached c n'.
  Proof.
    unfold cached, eraseSourceMap. induction c as [|[a s] c IH]; cbn; [now destruct (n =? n')%string|].
    destruct (a =? n)%string eqn:E; cbn.
    - apply String.eqb_eq in E. subst a. rewrite IH. destruct (n =? n')%string eqn:E'; reflexivity.
    - destruct (a =? n')%string eqn:E'.
      + apply String.eqb_eq in E'. subst n'. rewrite String.eqb_sym, E. reflexivity.
      + exact IH.
  Qed.

  Lemma seen_masked use_mask s k p : (if masked_out s use_mask k p then 0 else counts_at s (sm_spec s) k p)%R = seen use_mask s k p.
  Proof.
    unfold masked_out, seen. destruct use_mask; cbn [andb]; [|reflexivity].
    destruct (Rleb_spec (weight s k p) 0), (Rle_dec (weight s k p) 0); try reflexivity; lra.
  Qed.

  Lemma compute_ok save_all nb np use_mask srcs map c :
    (forall n, In n srcs -> exists s, map_of build c n = Some s /\ sm_ok s /\ sm_nb s = nb /\ sm_np s = np) ->
    exists map' c', computeModelMap build save_all (nb * np) use_mask srcs map c = Ok (map', c') /\ length map' = nb * np /\
      (forall n, cached c' n = if save_all && existsb (String.eqb n) srcs then map_of build c n else cached c n) /\
      forall k p, k < nb -> p < np ->
        nth (k * np + p) map' 0%R =
        (nth (k * np + p) (vec_resize map (nb * np) 0%R) 0 +
         Rsum (List.map (fun n => match map_of build c n with Some s => seen use_mask s k p | None => 0%R end) srcs))%R.
  Proof.
    unfold computeModelMap. 
    assert (L0 : length (vec_resize map (nb * np) 0%R) = nb * np) by apply vec_resize_length.
    revert L0. generalize (vec_resize map (nb * np) 0%R). clear map.
    revert c. induction srcs as [|n srcs IH]; intros c m L0 H.
    - exists m, c. cbn [mfold]. split; [reflexivity|]. split; [exact L0|]. split.
      + intros n. cbn. now rewrite Bool.andb_false_r.
      + intros k p _ _. cbn. lra.
    - destruct (H n (or_introl eq_refl)) as (s & Es & OK & Hb & Hp). cbn [mfold fst snd].
      set (c1 := if negb (match cached c n with Some _ => true | None => false end) && negb save_all
                 then eraseSourceMap (match cached c n with Some _ => c | None => (n, s) :: c end) n
                 else match cached c n with Some _ => c | None => (n, s) :: c end).
      destruct (updateModelMap_ok s OK m use_mask) as (m' & Em & Lm & Hm); [now rewrite Hb, Hp|].
      assert (G : getSourceMap build c n = Ok (s, match cached c n with Some _ => c | None => (n, s) :: c end)).
      { unfold getSourceMap, map_of in *. destruct (cached c n); [congruence|]. now rewrite Es. }
      rewrite G. cbn [obind fst snd]. rewrite Em. cbn [obind]. fold c1.
      assert (Hc1 : forall n', cached c1 n' = if save_all && (n' =? n)%string then map_of build c n' else cached c n').
      { intros n'. unfold c1. destruct (cached c n) as [s0|] eqn:Ec; cbn [negb andb].
        - destruct (save_all && (n' =? n)%string) eqn:Q; [|reflexivity]. apply andb_prop in Q. destruct Q as [_ Q]. apply String.eqb_eq in Q. subst n'.
          unfold map_of. now rewrite Ec.
        - destruct save_all; cbn [negb andb].
          + rewrite cached_cons. rewrite (String.eqb_sym n' n). destruct (n =? n')%string eqn:Q; [|reflexivity].
            apply String.eqb_eq in Q. subst n'. now rewrite Es.
          + rewrite cached_erase. destruct (n =? n')%string eqn:Q; [|now rewrite cached_cons, Q].
            apply String.eqb_eq in Q. subst n'. now rewrite Ec. }
      assert (Hm1 : forall n', map_of build c1 n' = map_of build c n').
      { intros n'. unfold map_of at 1. rewrite Hc1. destruct (save_all && (n' =? n)%string) eqn:Q; [|reflexivity].
        apply andb_prop in Q. destruct Q as [_ Q]. apply String.eqb_eq in Q. subst n'. rewrite Es. reflexivity. }
      destruct (IH c1 m') as (m2 & c2 & E2 & L2 & C2 & N2).
      + rewrite Lm, Hb, Hp. reflexivity.
      + intros n' Hn'. rewrite Hm1. apply H. now right.
      + exists m2, c2. split; [exact E2|]. split; [exact L2|]. split.
        * intros n'. rewrite C2, Hm1, Hc1. cbn [existsb]. destruct save_all; cbn [andb]; [|reflexivity].
          destruct (n' =? n)%string; cbn [orb]; [|reflexivity]. now destruct (existsb (String.eqb n') srcs).
        * intros k p Hk Hp'. rewrite N2 by assumption. specialize (Hm k p). rewrite Hb, Hp in Hm. rewrite Hm by assumption. rewrite seen_masked.
          cbn [List.map]. unfold Rsum at 2. cbn [fold_right]. fold (Rsum (List.map (fun n0 => match map_of build c n0 with Some s0 => seen use_mask s0 k p | None => 0%R end) srcs)).
          rewrite Es. rewrite (Rsum_ext _ (fun n0 => match map_of build c n0 with Some s0 => seen use_mask s0 k p | None => 0%R end)).
          2:{ intros n' _. now rewrite Hm1. }
          lra.
  Qed.

  Lemma one_is_single size use_mask n map c :
    computeModelMap_one build size use_mask n map c = computeModelMap build false size use_mask [n] map c.
  Proof.
    unfold computeModelMap_one, computeModelMap. cbn [mfold fst snd]. cbv zeta.
    destruct (getSourceMap build c n) as [[s c']| |]; cbn [obind fst snd]; [|reflexivity|reflexivity].
    destruct (updateModelMap _ s use_mask); cbn [obind]; [|reflexivity|reflexivity].
    destruct (cached c n); reflexivity.
  Qed.
End MM.

(** ** Counts spectra *)
Section CS.
  Context (dc : dcache) (data : list R) (np nb : nat) (model : list R).

  Lemma spectrum_ok s kmin kmax :
    sm_ok s -> sm_nb s = nb -> sm_np s = np -> dc_ok s dc -> kmin <= kmax <= nb -> length data = nb * np -> length model = length (dc_filled dc) ->
    (forall k j, kmin <= k < kmax -> In j (filled dc k) -> nth j model 0%R <> 0%R) ->
    exists sp, countsSpectrum dc data np model s kmin kmax = Ok sp /\ length sp = kmax - kmin /\
      forall k, kmin <= k < kmax -> nth (k - kmin) sp 0%R = share dc data np model s k.
  Proof.
    intros OK Hb Hp DC HK HD HM NZ. unfold countsSpectrum.
    destruct (addSourceCounts_ok s OK dc DC (zeros (length (dc_filled dc))) false) as (cnt & Ec & Lc & Hc); [apply repeat_length|].
    unfold zeros in Ec. rewrite Ec. cbn [obind].
    pose proof DC as (F1 & F2 & F3 & F4 & F5).
    loop (fun i (sp : list R) => length sp = kmax - kmin /\ (forall q, i <= q -> nth q sp 0%R = 0%R) /\
      forall k, kmin <= k < kmin + i -> nth (k - kmin) sp 0%R = share dc data np model s k) t E It.
    - split; [apply repeat_length|]. split; [intros; apply nth_repeat|]. intros; lia.
    - intros i sp Hi (L & Z & N). set (k := kmin + i). rewrite Hb in F1.
      rewrite (vec_get_ok (dc_first dc) k 0) by (unfold k; lia). cbn [obind]. rewrite (vec_get_ok (dc_first dc) (S k) 0) by (unfold k; lia). cbn [obind].
      pose proof (first_mono s dc DC k (S k) ltac:(unfold k; lia)) as FM. pose proof (first_le s dc DC (S k) ltac:(unfold k; lia)) as FL.
      replace (k - kmin) with i by (unfold k; lia).
      loop (fun a (sp' : list R) => length sp' = kmax - kmin /\ (forall q, q <> i -> nth q sp' 0%R = nth q sp 0%R) /\
        nth i sp' 0%R = Rsum (map (fun j => counts_at s (sm_spec s) k (nth j (dc_filled dc) 0%nat) / nth j model 0 * observed dc data np k j)%R
           (seq (nth k (dc_first dc) 0) a))) w Ew Iw.
      + split; [exact L|]. split; [reflexivity|]. cbn. apply Z. lia.
      + intros a w Ha (Lw & Ow & Nw). set (j := nth k (dc_first dc) 0 + a).
        assert (Hj : in_plane dc k j) by (unfold in_plane, j; lia). assert (Lj : j < length (dc_filled dc)) by (unfold in_plane in Hj; lia).
        rewrite (vec_get_ok cnt j 0%R) by lia. cbn [obind]. rewrite (vec_get_ok model j 0%R) by lia. cbn [obind].
        destruct (Reqb_spec (nth j model 0%R) 0) as [Q|Q].
        { exfalso. apply (NZ k j); [unfold k; lia| |exact Q]. unfold filled. apply in_seq. unfold in_plane in Hj. lia. }
        rewrite (vec_get_ok (dc_filled dc) j 0) by lia. cbn [obind].
        assert (Hpx : nth j (dc_filled dc) 0 < np) by (rewrite <- Hp; apply (proj1 (Forall_forall _ _) F5); now apply nth_In).
        rewrite (vec_get_ok data _ 0%R) by (rewrite HD; assert (k < nb) by (unfold k; lia); nia). cbn [obind].
        rewrite (vec_get_ok w i 0%R) by lia. cbn [obind]. rewrite vec_set_ok by lia. eexists; split; [reflexivity|]. rewrite upd_length.
        split; [exact Lw|]. split; [intros q Hq; rewrite nth_upd_neq by lia; now apply Ow|].
        rewrite nth_upd_eq by lia. rewrite Nw, seq_S, map_app, Rsum_app. cbn [map]. fold j. unfold Rsum at 3. cbn [fold_right].
        rewrite (Hc k j) by (assumption || (unfold k; lia)). unfold zeros. rewrite nth_repeat. unfold observed. lra.
      + destruct Iw as (Lw & Ow & Nw). exists w. split; [exact Ew|]. split; [exact Lw|]. split.
        * intros q Hq. rewrite Ow by lia. apply Z. lia.
        * intros k' Hk'. destruct (Nat.eq_dec k' k) as [->|Hne].
          -- replace (k - kmin) with i by (unfold k; lia). rewrite Nw. reflexivity.
          -- rewrite Ow by (unfold k in Hne; lia). apply N. unfold k in Hne. lia.
    - destruct It as (L & _ & N). exists t. split; [exact E|]. split; [exact L|]. intros k Hk. apply N. lia.
  Qed.

  (** The model of a list of sources. *)
  Lemma model_sum (ss : list smap) : forall buf,
    (forall s, In s ss -> sm_ok s /\ sm_nb s = nb /\ dc_ok s dc) -> length buf = length (dc_filled dc) ->
    exists buf', mfold (fun b s => addSourceCounts b s dc false) ss buf = Ok buf' /\ length buf' = length (dc_filled dc) /\
      forall k j, k < nb -> in_plane dc k j ->
        nth j buf' 0%R = (nth j buf 0 + Rsum (map (fun s => counts_at s (sm_spec s) k (nth j (dc_filled dc) 0%nat)) ss))%R.
  Proof.
    induction ss as [|s ss IH]; intros buf H L.
    - exists buf. cbn. repeat split; auto. intros; lra.
    - destruct (H s (or_introl eq_refl)) as (OK & Hb & DC). cbn [mfold].
      destruct (addSourceCounts_ok s OK dc DC buf false L) as (b & E & Lb & N). rewrite E. cbn [obind].
      destruct (IH b) as (b' & E' & L' & N'); [intros; apply H; now right|exact Lb|]. exists b'. split; [exact E'|]. split; [exact L'|].
      intros k j Hk Hj. rewrite (N' k j), (N k j) by (assumption || lia). cbn [map]. unfold Rsum at 2. cbn [fold_right].
      fold (Rsum (map (fun s => counts_at s (sm_spec s) k (nth j (dc_filled dc) 0%nat)) ss)). lra.
  Qed.

  Lemma Rsum_div {A} (f : A -> R) l m : Rsum (map (fun x => f x / m)%R l) = (Rsum (map f l) / m)%R.
  Proof. induction l as [|a l IH]; unfold Rsum in *; cbn; [unfold Rdiv; lra|]. rewrite IH. unfold Rdiv. lra. Qed.
  Lemma Rsum_mulr {A} (f : A -> R) l m : Rsum (map (fun x => f x * m)%R l) = (Rsum (map f l) * m)%R.
  Proof. induction l as [|a l IH]; unfold Rsum in *; cbn; [lra|]. rewrite IH. lra. Qed.

  Lemma shares_sum (ss : list smap) k :
    (forall j, In j (filled dc k) -> nth j model 0%R <> 0%R /\
       nth j model 0%R = Rsum (map (fun s => counts_at s (sm_spec s) k (nth j (dc_filled dc) 0%nat)) ss)) ->
    Rsum (map (fun s => share dc data np model s k) ss) = Rsum (map (observed dc data np k) (filled dc k)).
  Proof.
    intros H. unfold share. rewrite Rsum_swap. apply Rsum_ext. intros j Hj. destruct (H j Hj) as [N E].
    rewrite (Rsum_mulr (fun s => counts_at s (sm_spec s) k (nth j (dc_filled dc) 0%nat) / nth j model 0)%R).
    rewrite (Rsum_div (fun s => counts_at s (sm_spec s) k (nth j (dc_filled dc) 0%nat))). rewrite <- E. field. exact N.
  Qed.
End CS.

(** ** Files *)
Section FL.
  Context {V : Type}.

  Definition save_one (cache : string -> option V) (replace : bool) (out src : string) (f : files) : files :=
    match cache src with
    | None => f
    | Some v => if fileHasExtension f out src then (if replace then replaceSourceMap f out src v else f)
                else appendSourceMap f out src v
    end.

  Lemma part_is base i : part_name base i = (base ++ "_" ++ NilZero.string_of_uint (Nat.to_uint i) ++ ".fits")%string.
  Proof. reflexivity. Qed.

  Lemma ext_put (f : files) file l file' ext :
    extension (V := V) (put_file f file l) file' ext =
    if (file' =? file)%string then match find (fun e => (fst e =? ext)%string) l with Some e => Some (snd e) | None => None end
    else extension f file' ext.
  Proof. unfold extension, put_file. destruct (file' =? file)%string; reflexivity. Qed.

  Lemma find_replaced (l : list (string * V)) ext v ext' :
    match find (fun e => (fst e =? ext')%string) (map (fun e => if (fst e =? ext)%string then (ext, v) else e) l) with Some e => Some (snd e) | None => None end =
    match find (fun e => (fst e =? ext')%string) l with Some e => Some (if (ext' =? ext)%string then v else snd e) | None => None end.
  Proof.
    induction l as [|[a w] l IH]; cbn; [reflexivity|]. destruct (a =? ext)%string eqn:E; cbn [fst snd].
    - apply String.eqb_eq in E. subst a. destruct (ext =? ext')%string eqn:Q; cbn [snd].
      + rewrite (String.eqb_sym ext' ext), Q. reflexivity.
      + exact IH.
    - destruct (a =? ext')%string eqn:Q; cbn [snd]; [|exact IH]. apply String.eqb_eq in Q. subst a. now rewrite E.
  Qed.

  Lemma find_app {A} (g : A -> bool) a b : find g (a ++ b) = match find g a with Some x => Some x | None => find g b end.
  Proof. induction a as [|x a IH]; cbn; [reflexivity|]. destruct (g x); auto. Qed.

  Lemma save_one_ext cache replace out src (f : files) file ext :
    extension (save_one cache replace out src f) file ext =
    if (file =? out)%string && (ext =? src)%string then
      match cache src with
      | None => extension f file ext
      | Some v => match extension f file ext with Some old => Some (if replace then v else old) | None => Some v end
      end
    else extension f file ext.
  Proof.
    unfold save_one. destruct (cache src) as [v|]; [|now destruct ((file =? out)%string && (ext =? src)%string)].
    unfold fileHasExtension. destruct (extension f out src) as [old|] eqn:E.
    - destruct replace.
      + unfold replaceSourceMap. destruct (f out) as [l|] eqn:El; [|unfold extension in E; rewrite El in E; discriminate].
        rewrite ext_put, find_replaced. destruct (file =? out)%string eqn:Q; cbn [andb]; [|reflexivity].
        apply String.eqb_eq in Q. subst file. unfold extension. rewrite El.
        destruct (ext =? src)%string eqn:Q'.
        * apply String.eqb_eq in Q'. subst ext. unfold extension in E. rewrite El in E.
          destruct (find (fun e => (fst e =? src)%string) l); [reflexivity|discriminate].
        * destruct (find _ l); reflexivity.
      + destruct ((file =? out)%string && (ext =? src)%string) eqn:Q; [|reflexivity]. apply andb_prop in Q. destruct Q as [Q1 Q2].
        apply String.eqb_eq in Q1, Q2. subst. now rewrite E.
    - unfold appendSourceMap. rewrite ext_put. destruct (file =? out)%string eqn:Q; cbn [andb]; [|reflexivity].
      apply String.eqb_eq in Q. subst file. rewrite find_app. unfold extension in *. destruct (f out) as [l|].
      + destruct (ext =? src)%string eqn:Q'.
        * apply String.eqb_eq in Q'. subst ext. destruct (find (fun e => (fst e =? src)%string) l); [discriminate|]. cbn. now rewrite String.eqb_refl.
        * destruct (find (fun e => (fst e =? ext)%string) l); [reflexivity|]. cbn. rewrite (String.eqb_sym src ext), Q'. reflexivity.
      + cbn. rewrite (String.eqb_sym src ext). now destruct (ext =? src)%string.
  Qed.

  Lemma loop_is base n cache replace srcs : forall i ifile out (f : files),
    (n <= 499 -> out = base) ->
    (499 < n -> (i = 0 /\ ifile = 0) \/ (0 < i /\ ifile = (i - 1) / 500 /\ out = part_name base ifile)) ->
    snd (save_loop base n cache replace srcs (i, ifile, out, f)) =
    snd (fold_left (fun st src => (S (fst st), save_one cache replace (file_of base n (fst st)) src (snd st))) srcs (i, f)).
  Proof.
    unfold save_loop. induction srcs as [|src srcs IH]; intros i ifile out f H1 H2; [reflexivity|].
    match goal with |- snd (fold_left ?s _ _) = snd (fold_left ?s2 _ _) => set (step := s) in *; set (step2 := s2) in * end.
    cbn [fold_left]. unfold step2 at 2. cbn [fst snd].
    assert (E : exists ifile', step (i, ifile, out, f) src = (S i, ifile', file_of base n i, save_one cache replace (file_of base n i) src f) /\
                (499 < n -> ifile' = i / 500 /\ file_of base n i = part_name base ifile')).
    { unfold step. destruct (499 <? n) eqn:Qn.
      - apply Nat.ltb_lt in Qn. unfold file_of. replace (n <=? 499) with false by (symmetry; apply Nat.leb_gt; lia).
        destruct (i mod 500 =? 0) eqn:Qi.
        + apply Nat.eqb_eq in Qi. assert (Ei : (if 0 <? i then S ifile else ifile) = i / 500).
          { destruct (H2 Qn) as [[-> ->]|(Hi & -> & _)]; [reflexivity|]. replace (0 <? i) with true by (symmetry; apply Nat.ltb_lt; lia).
            pose proof (Nat.div_mod i 500 ltac:(lia)). pose proof (Nat.div_mod (i - 1) 500 ltac:(lia)). pose proof (Nat.mod_upper_bound (i - 1) 500 ltac:(lia)). nia. }
          cbv zeta. rewrite Ei. exists (i / 500). split; [reflexivity|]. intros _. split; reflexivity.
        + apply Nat.eqb_neq in Qi. destruct (H2 Qn) as [[-> ->]|(Hi & -> & ->)]; [cbn in Qi; lia|].
          assert (Ei : (i - 1) / 500 = i / 500).
          { pose proof (Nat.div_mod i 500 ltac:(lia)). pose proof (Nat.div_mod (i - 1) 500 ltac:(lia)). pose proof (Nat.mod_upper_bound (i - 1) 500 ltac:(lia)). pose proof (Nat.mod_upper_bound i 500 ltac:(lia)). nia. }
          rewrite Ei. exists (i / 500). split; [reflexivity|]. intros _. split; reflexivity.
      - apply Nat.ltb_ge in Qn. unfold file_of. replace (n <=? 499) with true by (symmetry; apply Nat.leb_le; lia).
        rewrite (H1 Qn). exists ifile. split; [reflexivity|]. lia. }
    destruct E as (ifile' & E & H3). rewrite E. apply IH.
    - intros Hn. unfold file_of. now replace (n <=? 499) with true by (symmetry; apply Nat.leb_le; lia).
    - intros Hn. right. destruct (H3 Hn) as [A B]. split; [lia|]. replace (S i - 1) with i by lia. auto.
  Qed.

  Lemma saved_ext base n cache replace srcs : forall i (f : files) file ext,
    let f' := snd (fold_left (fun st src => (S (fst st), save_one cache replace (file_of base n (fst st)) src (snd st))) srcs (i, f)) in
    (forall a v, nth_error srcs a = Some ext -> file_of base n (i + a) = file -> cache ext = Some v ->
       (replace = true \/ extension f file ext = None \/ extension f file ext = Some v) -> extension f' file ext = Some v) /\
    ((forall a, nth_error srcs a = Some ext -> file_of base n (i + a) = file -> cache ext = None \/ replace = false /\ extension f file ext <> None) ->
       extension f' file ext = extension f file ext).
  Proof.
    induction srcs as [|src srcs IH]; intros i f file ext f'.
    - split; [intros [|a] v H; discriminate|reflexivity].
    - unfold f'. cbn [fold_left fst snd]. destruct (IH (S i) (save_one cache replace (file_of base n i) src f) file ext) as [I1 I2].
      set (f1 := save_one cache replace (file_of base n i) src f) in *.
      pose proof (save_one_ext cache replace (file_of base n i) src f file ext) as X. fold f1 in X.
      split.
      + intros a v Ha Hf Hv HR.
        assert (Y : extension f1 file ext = Some v \/ extension f1 file ext = extension f file ext /\ ~ (file = file_of base n i /\ ext = src)).
        { rewrite X. destruct ((file =? file_of base n i)%string && (ext =? src)%string) eqn:Q.
          - apply andb_prop in Q. destruct Q as [Q1 Q2]. apply String.eqb_eq in Q1, Q2. subst src. rewrite Hv. left.
            destruct (extension f file ext); [|reflexivity]. destruct HR as [->|[D|D]]; [reflexivity|discriminate|]. destruct replace; congruence.
          - right. split; [reflexivity|]. intros [A B]. rewrite A, B, !String.eqb_refl in Q. cbn in Q. discriminate Q. }
        destruct a as [|a]; cbn in Ha.
        * injection Ha as ->. rewrite Nat.add_0_r in Hf. subst file. destruct Y as [Y|[_ Y]]; [|exfalso; now apply Y].
          destruct (in_dec string_dec ext srcs) as [Hin|Hin].
          -- destruct (List.existsb (fun b => (file_of base n (S i + b) =? file_of base n i)%string && match nth_error srcs b with Some e => (e =? ext)%string | None => false end) (seq 0 (length srcs))) eqn:Q.
             ++ apply existsb_exists in Q. destruct Q as (b & _ & Q). apply andb_prop in Q. destruct Q as [Q1 Q2]. apply String.eqb_eq in Q1.
                destruct (nth_error srcs b) as [e|] eqn:Eb; [|discriminate]. apply String.eqb_eq in Q2. subst e.
                apply (I1 b v Eb Q1 Hv). auto.
             ++ rewrite I2; [exact Y|]. intros b Eb Q1. exfalso.
                assert (existsb (fun b => (file_of base n (S i + b) =? file_of base n i)%string && match nth_error srcs b with Some e => (e =? ext)%string | None => false end) (seq 0 (length srcs)) = true).
                { apply existsb_exists. exists b. split; [apply in_seq; pose proof (at_lt _ _ _ Eb); lia|]. rewrite Q1, Eb, !String.eqb_refl. reflexivity. }
                congruence.
          -- rewrite I2; [exact Y|]. intros b Eb. exfalso. apply Hin. now apply nth_error_In in Eb.
        * apply (I1 a v Ha); [rewrite <- Hf; f_equal; lia|exact Hv|]. destruct Y as [Y|[Y _]]; [auto|]. rewrite Y. exact HR.
      + intros H.
        assert (Y : extension f1 file ext = extension f file ext).
        { rewrite X. destruct ((file =? file_of base n i)%string && (ext =? src)%string) eqn:Q; [|reflexivity].
          apply andb_prop in Q. destruct Q as [Q1 Q2]. apply String.eqb_eq in Q1, Q2. subst file src.
          destruct (H 0 eq_refl ltac:(f_equal; lia)) as [E|[E N]]; rewrite E; [reflexivity|]. destruct (cache ext); [|reflexivity]. destruct (extension f _ ext); [reflexivity|congruence]. }
        rewrite I2; [exact Y|]. intros a Ha Hf. destruct (H (S a) Ha ltac:(rewrite <- Hf; f_equal; lia)) as [A|[A B]]; [now left|right]. split; [exact A|]. now rewrite Y.
  Qed.
End FL.

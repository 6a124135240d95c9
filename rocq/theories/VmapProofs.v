(** Proofs about vectors of maps. *)
From Coq Require Import Reals String Sorted DecimalString Lra.
From Verif Require Import Base AccumModel AccumProofs SmapModel SmapSpec SmapProofs VmapModel VmapSpec PsfuProofs PsfuMaps.
Local Open Scope nat_scope.
Local Open Scope list_scope.

Lemma got {A} (l : list A) i x : nth_error l i = Some x -> vec_get l i = Ok x.
Proof. intros E. unfold vec_get. now rewrite E. Qed.
Lemma some_at {A} (l : list A) i : i < length l -> exists x, nth_error l i = Some x.
Proof. intros H. destruct (nth_error l i) eqn:E; [eauto|]. apply nth_error_None in E. lia. Qed.
Lemma at_lt {A} (l : list A) i x : nth_error l i = Some x -> i < length l.
Proof. intros E. apply nth_error_Some. now rewrite E. Qed.

Section Vec.
  Context {F D : Type} (op : F -> F -> D -> F) (one : D).

  Definition factor_of (m : vmap F D) (includeSpec : bool) (k : nat) : option D :=
    if includeSpec then nth_error (vm_spec m) k else Some one.

  Lemma full_loop_ok (m : vmap F D) image includeSpec kmin kmax vect :
    kmin <= kmax -> length vect = (kmax - kmin) * vm_np m -> kmax * vm_np m <= length image ->
    (includeSpec = true -> kmax <= length (vm_spec m)) ->
    exists v, full_loop one op m image includeSpec kmin kmax vect = Ok v /\ length v = length vect /\
      forall k p, kmin <= k < kmax -> p < vm_np m ->
        exists o x f, nth_error vect ((k - kmin) * vm_np m + p) = Some o /\ nth_error image (k * vm_np m + p) = Some x /\
          factor_of m includeSpec k = Some f /\ nth_error v ((k - kmin) * vm_np m + p) = Some (op o x f).
  Proof.
    intros Hk HL HI HS. unfold full_loop. set (np := vm_np m) in *.
    loop (fun i v => length v = length vect /\
      (forall j, i * np <= j -> nth_error v j = nth_error vect j) /\
      forall k p, kmin <= k < kmin + i -> p < np ->
        exists o x f, nth_error vect ((k - kmin) * np + p) = Some o /\ nth_error image (k * np + p) = Some x /\
          factor_of m includeSpec k = Some f /\ nth_error v ((k - kmin) * np + p) = Some (op o x f)) t E It.
    - repeat split; auto. intros; lia.
    - intros i v Hi (L & O & N).
      assert (Hf : exists f, factor_of m includeSpec (kmin + i) = Some f).
      { unfold factor_of. destruct includeSpec; [|eauto]. apply some_at. specialize (HS eq_refl). lia. }
      destruct Hf as [f Hf].
      assert (Ef : (if includeSpec then vec_get (vm_spec m) (kmin + i) else Ok one) = Ok f).
      { unfold factor_of in Hf. destruct includeSpec; [now apply got|congruence]. }
      rewrite Ef. cbn [obind]. replace (kmin + i - kmin) with i by lia.
      loop (fun a (w : list F) => length w = length vect /\
        (forall j, i * np + a <= j -> nth_error w j = nth_error vect j) /\
        (forall j, j < i * np -> nth_error w j = nth_error v j) /\
        forall p, p < a -> exists o x, nth_error vect (i * np + p) = Some o /\ nth_error image ((kmin + i) * np + p) = Some x /\
          nth_error w (i * np + p) = Some (op o x f)) w Ew Iw.
      + repeat split; auto. * intros j Hj. apply O. lia. * intros; lia.
      + intros a w Ha (Lw & Ow & Bw & Nw). cbn [plus].
        assert (Hi' : i * np + a < length vect) by (rewrite HL; nia).
        assert (Hm : (kmin + i) * np + a < length image) by nia.
        destruct (some_at vect (i * np + a) Hi') as [o Eo]. destruct (some_at image _ Hm) as [x Ex].
        rewrite (got _ _ _ Ex). cbn [obind]. rewrite (got w _ o) by (rewrite Ow by lia; exact Eo). cbn [obind].
        rewrite vec_set_ok by lia. eexists; split; [reflexivity|]. rewrite upd_length. split; [exact Lw|]. split; [|split].
        * intros j Hj. rewrite nth_error_upd_neq by lia. apply Ow. lia.
        * intros j Hj. rewrite nth_error_upd_neq by lia. apply Bw. lia.
        * intros p Hp. destruct (Nat.eq_dec p a) as [->|Hne].
          -- exists o, x. split; [exact Eo|]. split; [exact Ex|]. apply nth_error_upd_eq. lia.
          -- destruct (Nw p ltac:(lia)) as (o' & x' & A1 & A2 & A3). exists o', x'. split; [exact A1|]. split; [exact A2|].
             rewrite nth_error_upd_neq by lia. exact A3.
      + destruct Iw as (Lw & Ow & Bw & Nw). exists w. split; [exact Ew|]. split; [exact Lw|]. split.
        * intros j Hj. apply Ow. lia.
        * intros k p Hk' Hp. destruct (Nat.eq_dec k (kmin + i)) as [->|Hne].
          -- destruct (Nw p Hp) as (o & x & A1 & A2 & A3). replace (kmin + i - kmin) with i by lia.
             exists o, x, f. auto.
          -- destruct (N k p ltac:(lia) Hp) as (o & x & g & A1 & A2 & A3 & A4). exists o, x, g. split; [exact A1|]. split; [exact A2|]. split; [exact A3|].
             rewrite Bw by nia. exact A4.
    - destruct It as (L & _ & N). exists t. split; [exact E|]. split; [exact L|].
      intros k p Hk' Hp. apply N; lia.
  Qed.

  (** Updates of distinct entries. *)
  Lemma entries_ok (step : list F -> nat * F -> outcome (list F)) (g : nat -> F -> F -> F) off :
    forall es vect, NoDup (map fst es) ->
    (forall e, In e es -> off <= fst e /\ fst e - off < length vect) ->
    (forall v e o, In e es -> length v = length vect -> nth_error v (fst e - off) = Some o -> step v e = Ok (upd v (fst e - off) (g (fst e) o (snd e)))) ->
    exists v, mfold step es vect = Ok v /\ length v = length vect /\
      forall i, nth_error v i = match nth_error vect i with
        | None => None
        | Some o => Some (match find (fun e => fst e =? off + i) es with Some e => g (fst e) o (snd e) | None => o end)
        end.
  Proof.
    induction es as [|e es IH]; intros vect ND HB HS.
    - exists vect. cbn. repeat split; auto. intros i. destruct (nth_error vect i); reflexivity.
    - cbn [map] in ND. inversion ND as [|? ? N1 N2]; subst.
      destruct (HB e (or_introl eq_refl)) as [B1 B2]. destruct (some_at vect _ B2) as [o Eo].
      cbn [mfold]. rewrite (HS vect e o (or_introl eq_refl) eq_refl Eo). cbn [obind].
      destruct (IH (upd vect (fst e - off) (g (fst e) o (snd e)))) as (v & E & L & N).
      + exact N2.
      + intros e' H'. rewrite upd_length. apply HB. now right.
      + intros v e' o' H' L' E'. rewrite upd_length in L'. apply HS; auto. now right.
      + exists v. split; [exact E|]. rewrite upd_length in L. split; [exact L|]. intros i. rewrite N. cbn [find].
        destruct (fst e =? off + i) eqn:Q.
        * apply Nat.eqb_eq in Q. replace i with (fst e - off) by lia. rewrite nth_error_upd_eq by lia. rewrite Eo.
          replace (off + (fst e - off)) with (fst e) by lia.
          destruct (find (fun e0 => fst e0 =? fst e) es) as [e1|] eqn:Fd; [|reflexivity].
          apply find_some in Fd. destruct Fd as [I1 I2]. apply Nat.eqb_eq in I2. exfalso. apply N1. rewrite <- I2. now apply in_map.
        * apply Nat.eqb_neq in Q. rewrite nth_error_upd_neq by lia. reflexivity.
  Qed.

  Lemma sorted_nodup (l : list nat) : StronglySorted lt l -> NoDup l.
  Proof.
    induction 1 as [|a l _ IH H]; constructor; auto. intros HI. rewrite Forall_forall in H. specialize (H a HI). lia.
  Qed.
  Lemma nodup_filter {A B} (f : A -> bool) (g : A -> B) l : NoDup (map g l) -> NoDup (map g (filter f l)).
  Proof.
    induction l as [|a l IH]; cbn; intros H; [constructor|]. inversion H as [|? ? N1 N2]; subst.
    destruct (f a); cbn; [|auto]. constructor; [|auto]. intros HI. apply N1.
    apply in_map_iff in HI. destruct HI as (b & E & I). apply filter_In in I. apply in_map_iff. exists b. tauto.
  Qed.
  Lemma find_filter {A} (f g : A -> bool) l : (forall a, g a = true -> f a = true) -> find g (filter f l) = find g l.
  Proof.
    intros H. induction l as [|a l IH]; cbn; [reflexivity|]. destruct (f a) eqn:Ef; cbn.
    - now rewrite IH.
    - destruct (g a) eqn:Eg; [|exact IH]. rewrite (H a Eg) in Ef. discriminate.
  Qed.

  Lemma sparse_loop_ok (m : vmap F D) l includeSpec checked kmin kmax vect :
    0 < vm_np m -> kmin <= kmax -> length vect = (kmax - kmin) * vm_np m ->
    StronglySorted lt (map fst l) -> ~ In (kmax * vm_np m) (map fst l) ->
    (includeSpec = true -> kmax <= length (vm_spec m)) -> (checked = true -> includeSpec = true) ->
    exists v, sparse_loop one op checked m l includeSpec kmin kmax vect = Ok v /\ length v = length vect /\
      forall k p, kmin <= k < kmax -> p < vm_np m ->
        exists o f, nth_error vect ((k - kmin) * vm_np m + p) = Some o /\ factor_of m includeSpec k = Some f /\
          nth_error v ((k - kmin) * vm_np m + p) =
            Some (match find (fun e => fst e =? k * vm_np m + p) l with Some e => op o (snd e) f | None => o end).
  Proof.
    intros Hnp Hk HL HSo Hend HS Hch. unfold sparse_loop. set (np := vm_np m) in *.
    assert (HW : forall e, In e (window l (kmin * np) (kmax * np)) -> In e l /\ kmin * np <= fst e /\ fst e < kmax * np).
    { intros e H. unfold window in H. apply filter_In in H. destruct H as [I H]. apply andb_prop in H. destruct H as [H1 H2].
      apply Nat.leb_le in H1, H2. split; [exact I|]. split; [exact H1|]. assert (fst e <> kmax * np); [|lia].
      intros Q. apply Hend. rewrite <- Q. now apply in_map. }
    assert (FD : forall k, k < kmax -> exists f, factor_of m includeSpec k = Some f).
    { intros k Hk'. unfold factor_of. destruct includeSpec; [|eauto]. apply some_at. specialize (HS eq_refl). lia. }
    destruct (entries_ok
      (fun (vect0 : list F) (e : nat * F) =>
       let ie := if includeSpec then Z.of_nat (fst e / np) else (-1)%Z in
       if checked && ((ie <? 0)%Z || (Z.of_nat (length (vm_spec m)) <=? ie)%Z) then Throw
       else obind (if (0 <=? ie)%Z then vec_get (vm_spec m) (Z.to_nat ie) else Ok one) (fun factor =>
            obind (vec_get vect0 (fst e - kmin * np)) (fun o => vec_set vect0 (fst e - kmin * np) (op o (snd e) factor))))
      (fun i o x => match factor_of m includeSpec (i / np) with Some f => op o x f | None => o end) (kmin * np)
      (window l (kmin * np) (kmax * np)) vect) as (v & E & L & N).
    - apply nodup_filter. now apply sorted_nodup.
    - intros e He. destruct (HW e He) as (_ & A & B). split; [exact A|]. rewrite HL. rewrite Nat.mul_sub_distr_r. lia.
    - intros w e o He Lw Eo. destruct (HW e He) as (_ & A & B). cbv beta zeta.
      assert (Hq : fst e / np < kmax) by (apply Nat.div_lt_upper_bound; lia).
      destruct (FD _ Hq) as [f Hf]. rewrite Hf. unfold factor_of in Hf.
      assert (Lw' : fst e - kmin * np < length w) by (apply (at_lt _ _ _ Eo)).
      destruct includeSpec.
      + specialize (HS eq_refl).
        replace (Z.of_nat (fst e / np) <? 0)%Z with false by (symmetry; apply Z.ltb_ge; lia).
        replace (Z.of_nat (length (vm_spec m)) <=? Z.of_nat (fst e / np))%Z with false by (symmetry; apply Z.leb_gt; lia).
        rewrite Bool.andb_false_r. replace (0 <=? Z.of_nat (fst e / np))%Z with true by (symmetry; apply Z.leb_le; lia).
        rewrite Nat2Z.id, (got _ _ _ Hf). cbn [obind]. rewrite (got _ _ _ Eo). cbn [obind]. now rewrite vec_set_ok.
      + destruct checked; [specialize (Hch eq_refl); discriminate|]. cbn [andb]. change (0 <=? -1)%Z with false. cbn [obind].
        rewrite (got _ _ _ Eo). cbn [obind]. rewrite vec_set_ok by exact Lw'. congruence.
    - exists v. split; [exact E|]. split; [exact L|]. intros k p Hk' Hp.
      assert (Hi : (k - kmin) * np + p < length vect) by (rewrite HL; nia).
      destruct (some_at vect _ Hi) as [o Eo]. destruct (FD k ltac:(lia)) as [f Hf]. exists o, f. split; [exact Eo|]. split; [exact Hf|].
      rewrite N, Eo. f_equal. replace (kmin * np + ((k - kmin) * np + p)) with (k * np + p) by nia.
      unfold window. rewrite find_filter.
      2:{ intros a Ha. apply Nat.eqb_eq in Ha. rewrite Ha. apply andb_true_intro. split; apply Nat.leb_le; nia. }
      destruct (find (fun e => fst e =? k * np + p) l) as [e|] eqn:Fd; [|reflexivity].
      apply find_some in Fd. destruct Fd as [_ Q]. apply Nat.eqb_eq in Q. rewrite Q.
      replace ((k * np + p) / np) with k by (rewrite Nat.div_add_l, Nat.div_small by lia; lia). now rewrite Hf.
  Qed.
End Vec.

Lemma size_ok {F D} (m : vmap F D) vect kmin kmax : kmin <= kmax -> length vect = (kmax - kmin) * vm_np m -> right_size m vect kmin kmax = true.
Proof. intros A B. unfold right_size. apply andb_true_intro. split; [now apply Nat.leb_le|]. now apply Nat.eqb_eq. Qed.
Lemma planes_last {F D} (m : vmap F D) kmin K kmax : planes m kmin K kmax -> last_plane m K = kmax.
Proof.
  intros [H [->|[HK ->]]]; unfold last_plane.
  - replace (Z.of_nat kmax <? 0)%Z with false by (symmetry; apply Z.ltb_ge; lia). apply Nat2Z.id.
  - replace (K <? 0)%Z with true by (symmetry; apply Z.ltb_lt; lia). reflexivity.
Qed.
Lemma refresh_same {F D} (m : vmap F D) : up_to_date m -> refresh m = m.
Proof. unfold up_to_date, refresh. intros E. rewrite E. rewrite <- E. now destruct m. Qed.

(** What each function does to an up-to-date map; [spec = true] for adding a sparse map. *)
Lemma add_ok {F D} (add : F -> F -> D -> F) (one : D) (m : vmap F D) vect spec kmin K kmax :
  well_made m -> up_to_date m -> planes m kmin K kmax -> clear_end m kmax -> length vect = (kmax - kmin) * vm_np m ->
  (spec = true \/ exists i, vm_img m = Whole i) ->
  exists v, addToVector add one vect spec kmin K m = Ok (v, m) /\ pixelwise add (factor_of one m spec) m kmin kmax vect v.
Proof.
  intros (W1 & W2 & W3) U P C HL HS. pose proof (planes_last m kmin K kmax P) as HP. destruct P as [P _].
  unfold addToVector, clear_end, pixelwise, stored_at in *. destruct (vm_img m) as [i|l] eqn:EI.
  - unfold addToVector_full. cbv zeta. rewrite HP, size_ok by (lia || exact HL). cbn [negb].
    unfold spectrum_size_ok. rewrite W2, Nat.eqb_refl, Bool.orb_true_r. cbn [negb].
    destruct (full_loop_ok add one m i spec kmin kmax vect) as (v & E & L & N); [lia|exact HL|rewrite W3; nia|intros; lia|].
    rewrite E. cbn [obind]. exists v. split; [reflexivity|]. split; [exact L|]. intros k p Hk Hp.
    destruct (N k p Hk Hp) as (o & x & f & A1 & A2 & A3 & A4). exists o, f. rewrite A2. auto.
  - unfold addToVector_sparse. cbv zeta. rewrite HP, size_ok by (lia || exact HL). cbn [negb].
    destruct W3 as [S1 S2]. destruct HS as [->|[i Hi]]; [|congruence]. rewrite refresh_same by exact U.
    destruct (sparse_loop_ok add one m l true true kmin kmax vect) as (v & E & L & N); [exact W1|lia|exact HL|exact S1|exact C|intros; lia|auto|].
    rewrite E. cbn [obind]. exists v. split; [reflexivity|]. split; [exact L|]. intros k p Hk Hp.
    destruct (N k p Hk Hp) as (o & f & A1 & A2 & A3). exists o, f. split; [exact A1|]. split; [exact A2|]. rewrite A3.
    destruct (find _ l); reflexivity.
Qed.

Lemma sub_ok {F D} (sub : F -> F -> D -> F) (one : D) (m : vmap F D) vect spec kmin K kmax :
  well_made m -> up_to_date m -> planes m kmin K kmax -> clear_end m kmax -> length vect = (kmax - kmin) * vm_np m ->
  exists v, subtractFromVector sub one vect spec kmin K m = Ok (v, m) /\ pixelwise sub (factor_of one m spec) m kmin kmax vect v.
Proof.
  intros (W1 & W2 & W3) U P C HL. pose proof (planes_last m kmin K kmax P) as HP. destruct P as [P _].
  unfold subtractFromVector, clear_end, pixelwise, stored_at in *. destruct (vm_img m) as [i|l] eqn:EI.
  - unfold subtractFromVector_full. cbv zeta. rewrite HP, size_ok by (lia || exact HL). cbn [negb].
    replace (if spec then refresh m else m) with m by (destruct spec; [now rewrite refresh_same|reflexivity]).
    destruct (full_loop_ok sub one m i spec kmin kmax vect) as (v & E & L & N); [lia|exact HL|rewrite W3; nia|intros; lia|].
    rewrite E. cbn [obind]. exists v. split; [reflexivity|]. split; [exact L|]. intros k p Hk Hp.
    destruct (N k p Hk Hp) as (o & x & f & A1 & A2 & A3 & A4). exists o, f. rewrite A2. auto.
  - unfold subtractFromVector_sparse. cbv zeta. rewrite HP, size_ok by (lia || exact HL). cbn [negb].
    unfold spectrum_size_ok. rewrite W2, Nat.eqb_refl, Bool.orb_true_r. cbn [negb].
    destruct W3 as [S1 S2].
    destruct (sparse_loop_ok sub one m l spec false kmin kmax vect) as (v & E & L & N); [exact W1|lia|exact HL|exact S1|exact C|intros; lia|discriminate|].
    rewrite E. cbn [obind]. exists v. split; [reflexivity|]. split; [exact L|]. intros k p Hk Hp.
    destruct (N k p Hk Hp) as (o & f & A1 & A2 & A3). exists o, f. split; [exact A1|]. split; [exact A2|]. rewrite A3.
    destruct (find _ l); reflexivity.
Qed.

(** Every entry of a vector belongs to a plane and a pixel. *)
Lemma split_index np kmin kmax i : 0 < np -> i < (kmax - kmin) * np ->
  exists k p, kmin <= k < kmax /\ p < np /\ i = (k - kmin) * np + p.
Proof.
  intros H Hi. exists (kmin + i / np), (i mod np). pose proof (Nat.div_lt_upper_bound i np (kmax - kmin) ltac:(lia) ltac:(lia)).
  pose proof (Nat.mod_upper_bound i np ltac:(lia)). pose proof (Nat.div_mod i np ltac:(lia)).
  replace (kmin + i / np - kmin) with (i / np) by lia. repeat split; try lia.
Qed.
Lemma nth_error_ext {A} (a b : list A) : length a = length b -> (forall i, i < length a -> nth_error a i = nth_error b i) -> a = b.
Proof.
  revert b. induction a as [|x a IH]; intros [|y b] L H; cbn in L; try lia; [reflexivity|].
  pose proof (H 0 ltac:(cbn; lia)) as H0. cbn in H0. injection H0 as ->. f_equal. apply IH; [lia|].
  intros i Hi. apply (H (S i)). cbn. lia.
Qed.

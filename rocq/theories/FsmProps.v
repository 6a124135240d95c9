(** Merging the components of a summed analysis for the fit scanner. *)
From Verif Require Import Base AccumModel AccumProofs FsmModel FsmSpec FsmProofs FsmData.
From Coq Require Import Reals Lra Permutation.
Open Scope R_scope.

(** The merged grid holds each edge of each component once (edges closer than the
    tolerance count as one), in increasing order, and row [k] of the table of local bins
    says, for each component, which of its bins begins at the merged edge [k]. *)
Theorem C64_grid : forall gs tol, 0 < tol -> (forall g, In g gs -> grid_ok tol g) ->
  exists N, forall fuel, (N <= fuel)%nat -> exists es rows,
    merge_energies fuel gs tol = Some (Ok (es, rows)) /\
    (forall k k' m m', (k < k')%nat -> nth_error es k = Some m -> nth_error es k' = Some m' -> m + tol <= m') /\
    (forall m, In m es -> exists g, In g gs /\ In m g) /\
    (forall g x, In g gs -> In x g -> exists m, In m es /\ merged_into tol m x) /\
    length rows = length es /\
    (forall k m r, nth_error es k = Some m -> nth_error rows k = Some r ->
       length r = length gs /\
       forall j g, nth_error gs j = Some g -> exists o, nth_error r j = Some o /\
         forall b, o = Some b <-> ((S b < length g)%nat /\ exists x, nth_error g b = Some x /\ merged_into tol m x)).
Proof.
  intros gs tol Ht Hg. destruct (merge_ok gs tol Ht Hg) as (N & HN). exists N. intros fuel Hf.
  destruct (HN fuel Hf) as (es & rows & idx & E & I & D). exists es, rows. split; [exact E|].
  split; [apply (i_sorted _ _ _ _ _ I)|]. split; [apply (i_edge _ _ _ _ _ I)|]. split; [|split; [apply (i_rows _ _ _ _ _ I)|apply (i_row _ _ _ _ _ I)]].
  intros g x Ig Ix. apply In_nth_error in Ig, Ix. destruct Ig as (j & Ej), Ix as (b & Eb).
  destruct (idx_at gs idx j g (i_len _ _ _ _ _ I) Ej) as (i & Ei). apply (i_done _ _ _ _ _ I j g i b x); auto.
  rewrite (D j g i Ej Ei). apply nth_error_Some. congruence.
Qed.
Print Assumptions C64_grid.

Lemma sizeTot_ok {A} tol (cs : list (component A)) : (forall c, In c cs -> comp_ok tol c) ->
  sizeTot (map c_edges cs) (map c_pix cs) = length (concat (map c_data cs)).
Proof.
  induction cs as [|c cs IH]; intros H; simpl; auto. rewrite app_length, IH by (intros; apply H; now right). f_equal.
  symmetry. apply (H c). now left.
Qed.

Lemma nth_error_map' {A B} (f : A -> B) l i x : nth_error l i = Some x -> nth_error (map f l) i = Some (f x).
Proof. intros H. now apply map_nth_error. Qed.

Lemma row_layer_ok {A} tol m : 0 < tol -> forall (cs : list (component A)) r, length r = length cs ->
  (forall c, In c cs -> comp_ok tol c) ->
  (forall j g, nth_error (map c_edges cs) j = Some g -> exists o, nth_error r j = Some o /\
     forall b, o = Some b <-> ((S b < length g)%nat /\ exists x, nth_error g b = Some x /\ merged_into tol m x)) ->
  Forall2 row_fits r cs /\ row_layer r cs = layer tol m cs.
Proof.
  intros Ht. induction cs as [|c cs IH]; intros [|o r] L Hc H; simpl in L; try discriminate; [split; [constructor|reflexivity]|].
  destruct (IH r) as [I1 I2]; [lia|intros; apply Hc; now right| |]. { intros j g E. apply (H (S j) g E). }
  destruct (H 0%nat (c_edges c) eq_refl) as (o' & Eo & Ho). simpl in Eo. injection Eo as <-.
  destruct (Hc c (or_introl eq_refl)) as [Hgr Hlen]. split.
  - constructor; auto. intros b Eb. apply Ho in Eb. destruct Eb as (Hb & _). rewrite Hlen.
    assert (S b <= length (c_edges c) - 1)%nat by lia. nia.
  - unfold layer in *. simpl. rewrite I2. f_equal. rewrite starting_pieces. destruct o as [b|]; simpl.
    + destruct (proj1 (Ho b) eq_refl) as (Hb & x & Ex & Hx). rewrite (pieces_one tol m c _ b); auto.
      * apply in_seq. lia. * apply seq_NoDup. * exists x. auto.
      * intros b' Hb' (y & Ey & Hy). apply in_seq in Hb'. assert (E' : Some b = Some b'); [|congruence]. apply Ho. split; [lia|]. exists y. auto.
    + rewrite pieces_none; auto. intros b Hb (y & Ey & Hy). apply in_seq in Hb. assert (E' : None = Some b); [|discriminate]. apply Ho. split; [lia|]. exists y. auto.
Qed.

Lemma last_layer {A} tol es m (cs : list (component A)) : 0 < tol -> (forall c, In c cs -> comp_ok tol c) ->
  (forall k k' a b, (k < k')%nat -> nth_error (es ++ [m]) k = Some a -> nth_error (es ++ [m]) k' = Some b -> a + tol <= b) ->
  (forall g x, In g (map c_edges cs) -> In x g -> exists a, In a (es ++ [m]) /\ merged_into tol a x) ->
  layer tol m cs = [].
Proof.
  intros Ht Hc Hs Hall. unfold layer.
  assert (P : forall c, In c cs -> starting_at tol m c = []).
  { intros c Ic. rewrite starting_pieces. apply pieces_none. intros b Hb (x & Ex & X1 & X2). apply in_seq in Hb.
    destruct (nth_error (c_edges c) (S b)) as [y|] eqn:Ey; [|apply nth_error_None in Ey; lia].
    destruct (Hc c Ic) as [(_ & _ & Hgap) _]. pose proof (Hgap b (S b) x y ltac:(lia) Ex Ey).
    destruct (Hall (c_edges c) y) as (a & Ia & A1 & A2); [apply in_map; auto|eapply nth_error_In; eauto|].
    apply In_nth_error in Ia. destruct Ia as (k & Ek).
    assert (k < length (es ++ [m]))%nat by (apply nth_error_Some; congruence). rewrite app_length in H0. simpl in H0.
    assert (Em : nth_error (es ++ [m]) (length es) = Some m) by (rewrite nth_error_app2, Nat.sub_diag by lia; reflexivity).
    destruct (Nat.eq_dec k (length es)) as [->|N]; [assert (a = m) by congruence; subst; lra|].
    pose proof (Hs k (length es) a m ltac:(lia) Ek Em). lra. }
  clear Hall Hc. induction cs as [|c cs IH]; simpl; auto. rewrite P by now left. apply IH. intros; apply P; now right.
Qed.

(** The merged vector is made of one layer per merged edge; a layer holds, component after
    component, the values of the bin that begins at that edge.  The number of pixels of each
    layer is the length of that layer, and the vector is filled exactly. *)
Theorem C64_values : forall A (zero : A) (cs : list (component A)) tol, 0 < tol -> cs <> [] -> (forall c, In c cs -> comp_ok tol c) ->
  exists N, forall fuel, (N <= fuel)%nat -> exists es rows,
    merge_energies fuel (map c_edges cs) tol = Some (Ok (es, rows)) /\
    localData zero (map c_edges cs) (map c_pix cs) rows (map c_data cs) = Ok (concat (map (fun m => layer tol m cs) es)) /\
    nPixelsByLayer (map c_pix cs) rows = Ok (map (fun m => length (layer tol m cs)) (removelast es)) /\
    Permutation (concat (map (fun m => layer tol m cs) es)) (concat (map c_data cs)) /\
    (forall c, In c cs -> concat (map (fun m => starting_at tol m c) es) = c_data c).
Proof.
  intros A zero cs tol Ht Hne Hc.
  assert (Hg : forall g, In g (map c_edges cs) -> grid_ok tol g).
  { intros g Ig. apply in_map_iff in Ig. destruct Ig as (c & <- & Ic). apply (Hc c Ic). }
  destruct (C64_grid (map c_edges cs) tol Ht Hg) as (N & HN). exists N. intros fuel Hf.
  destruct (HN fuel Hf) as (es & rows & E & Hs & Hedge & Hall & Hlen & Hrow). exists es, rows. split; [exact E|].
  assert (Own : forall c, In c cs -> concat (map (fun m => starting_at tol m c) es) = c_data c).
  { intros c Ic. destruct (Hc c Ic) as [Hgr Hl]. rewrite (comp_layers_from tol c Ht Hgr es 0 Hs); [|lia| |intros; lia].
    - rewrite Nat.sub_0_r. unfold bin_values. rewrite bins_concat; [reflexivity|simpl; lia].
    - intros b Hb. destruct (nth_error (c_edges c) b) as [x|] eqn:Ex; [|apply nth_error_None in Ex; lia].
      destruct (Hall (c_edges c) x) as (m & Im & Hm); [apply in_map; auto|eapply nth_error_In; eauto|]. exists m. split; auto. exists x. auto. }
  assert (Perm : Permutation (concat (map (fun m => layer tol m cs) es)) (concat (map c_data cs))).
  { unfold layer. rewrite (swap_concat (fun m c => starting_at tol m c) es cs). apply Permutation_refl'. f_equal. apply map_ext_in. exact Own. }
  assert (Rows : forall k m r, nth_error es k = Some m -> nth_error rows k = Some r -> Forall2 row_fits r cs /\ row_layer r cs = layer tol m cs).
  { intros k m r E1 E2. destruct (Hrow k m r E1 E2) as [L H]. rewrite map_length in L. apply row_layer_ok; auto. }
  assert (Nes : es <> []).
  { destruct cs as [|c cs']; [contradiction|]. destruct (Hc c (or_introl eq_refl)) as [(Hn & _) _]. destruct (c_edges c) as [|x g] eqn:Eg; [contradiction|].
    destruct (Hall (c_edges c) x) as (m & Im & _); [now left|rewrite Eg; now left|]. destruct es; [destruct Im|discriminate]. }
  destruct (exists_last Nes) as (es0 & ml & ->). 
  destruct (exists_last (l := rows)) as (rows0 & rl & ->). { intros ->. rewrite app_length in Hlen. simpl in Hlen. lia. }
  rewrite !app_length in Hlen. simpl in Hlen. assert (L0 : length rows0 = length es0) by lia.
  assert (Last : layer tol ml cs = []) by (eapply last_layer; eauto).
  assert (All : map (fun r => row_layer r cs) rows0 = map (fun m => layer tol m cs) es0 /\ List.Forall (fun r => Forall2 row_fits r cs) rows0).
  { assert (R0 : forall k m r, nth_error es0 k = Some m -> nth_error rows0 k = Some r -> Forall2 row_fits r cs /\ row_layer r cs = layer tol m cs).
    { intros k m r E1 E2. apply (Rows k m r); (rewrite nth_error_app1; [assumption|apply nth_error_Some; congruence]). }
    clear - L0 R0. revert es0 L0 R0. induction rows0 as [|r rows0 IH]; intros [|m es0] L R0; simpl in L; try discriminate; [split; [reflexivity|constructor]|].
    destruct (R0 0%nat m r eq_refl eq_refl) as [P1 P2]. destruct (IH es0) as [I1 I2]; [lia|intros k a b E1 E2; apply (R0 (S k)); auto|].
    split; [simpl; congruence|constructor; auto]. }
  destruct All as [All1 All2].
  assert (Used : used_rows (rows0 ++ [rl]) = Ok rows0). { unfold used_rows. rewrite removelast_last. destruct rows0; reflexivity. }
  split; [|split; [|split; [exact Perm|exact Own]]].
  - unfold localData, mergeVectors. rewrite Used. simpl obind. rewrite (sizeTot_ok tol cs Hc), <- (Permutation_length Perm).
    rewrite map_app, concat_app. simpl. rewrite Last, !app_nil_r, <- All1.
    pose proof (merge_rows_ok zero cs rows0 All2 [] (length (concat (map (fun r => row_layer r cs) rows0))) (le_n _)) as M. simpl in M. rewrite M. simpl.
    rewrite Nat.sub_diag. simpl. rewrite app_nil_r. reflexivity.
  - unfold nPixelsByLayer. rewrite Used. simpl obind. rewrite (nPixels_ok cs rows0 All2). simpl. rewrite removelast_last. f_equal.
    rewrite <- (map_map (fun m => layer tol m cs) (@length A)), <- All1, map_map. reflexivity.
Qed.
Print Assumptions C64_values.

Lemma layer_map {A B} (h : A -> B) tol m (cs : list (component A)) :
  layer tol m (map (fun c => {| c_edges := c_edges c; c_pix := c_pix c; c_data := map h (c_data c) |}) cs) = map h (layer tol m cs).
Proof.
  unfold layer. rewrite map_map, concat_map, map_map. f_equal. apply map_ext. intros c. unfold starting_at. rewrite concat_map, map_map. f_equal. apply map_ext. intros b.
  simpl. unfold bin_values. simpl. rewrite skipn_map, firstn_map. destruct (nth_error (c_edges c) b) as [x|]; auto. destruct (Rle_dec m x); auto. destruct (Rlt_dec x (m + tol)); auto.
Qed.

Lemma Rsum_perm l l' : Permutation l l' -> Rsum l = Rsum l'.
Proof. unfold Rsum. induction 1; simpl; try lra. Qed.
Lemma Rsum_concat ls : Rsum (concat ls) = Rsum (map Rsum ls).
Proof. induction ls as [|l ls IH]; simpl; auto. unfold Rsum in *. rewrite fold_right_app, <- IH. clear IH. induction l; simpl; [lra|]. rewrite IHl. simpl. lra. Qed.

(** Data and model are merged in the same way, so any sum over pixels (such as a Poisson
    log-likelihood) is the sum of those of the components. *)
Theorem C64_sum : forall (cs : list (component (R * R))) tol (f : R -> R -> R), 0 < tol -> cs <> [] -> (forall c, In c cs -> comp_ok tol c) ->
  exists N, forall fuel, (N <= fuel)%nat -> exists es rows d m,
    merge_energies fuel (map c_edges cs) tol = Some (Ok (es, rows)) /\
    localData 0 (map c_edges cs) (map c_pix cs) rows (map (fun c => map fst (c_data c)) cs) = Ok d /\
    localData 0 (map c_edges cs) (map c_pix cs) rows (map (fun c => map snd (c_data c)) cs) = Ok m /\
    Permutation (combine d m) (concat (map c_data cs)) /\
    Rsum (map (fun p => f (fst p) (snd p)) (combine d m)) =
    Rsum (map (fun c => Rsum (map (fun p => f (fst p) (snd p)) (c_data c))) cs).
Proof.
  intros cs tol f Ht Hne Hc.
  set (part := fun (h : R * R -> R) (c : component (R * R)) => {| c_edges := c_edges c; c_pix := c_pix c; c_data := map h (c_data c) |}).
  assert (P : forall h, map (part h) cs <> [] /\ (forall c, In c (map (part h) cs) -> comp_ok tol c) /\
            map c_edges (map (part h) cs) = map c_edges cs /\ map c_pix (map (part h) cs) = map c_pix cs /\
            map c_data (map (part h) cs) = map (fun c => map h (c_data c)) cs).
  { intros h. split; [destruct cs; [contradiction|discriminate]|]. split; [|rewrite !map_map; repeat split; reflexivity].
    intros c Ic. apply in_map_iff in Ic. destruct Ic as (c0 & <- & Ic0). destruct (Hc c0 Ic0) as [G L]. split; [exact G|]. simpl. rewrite map_length. exact L. }
  destruct (C64_values _ (0, 0) cs tol Ht Hne Hc) as (N0 & H0).
  destruct (P fst) as (F1 & F2 & F3 & F4 & F5). destruct (C64_values _ 0 _ tol Ht F1 F2) as (N1 & H1).
  destruct (P snd) as (S1 & S2 & S3 & S4 & S5). destruct (C64_values _ 0 _ tol Ht S1 S2) as (N2 & H2).
  exists (N0 + N1 + N2)%nat. intros fuel Hf.
  destruct (H0 fuel ltac:(lia)) as (es & rows & E & _ & _ & Pm & _).
  destruct (H1 fuel ltac:(lia)) as (es1 & rows1 & E1 & D1 & _).
  destruct (H2 fuel ltac:(lia)) as (es2 & rows2 & E2 & D2 & _).
  rewrite F3, E in E1. injection E1 as <- <-. rewrite S3, E in E2. injection E2 as <- <-.
  rewrite F3, F4, F5 in D1. rewrite S3, S4, S5 in D2.
  set (out := concat (map (fun m => layer tol m cs) es)) in *.
  assert (L : forall h, concat (map (fun m => layer tol m (map (part h) cs)) es) = map h out).
  { intros h. unfold out. rewrite concat_map, map_map. f_equal. apply map_ext. intros m. apply layer_map. }
  rewrite L in D1, D2. exists es, rows, (map fst out), (map snd out). split; [exact E|]. split; [exact D1|]. split; [exact D2|].
  assert (C : combine (map fst out) (map snd out) = out). { clear. induction out as [|[a b] l IH]; simpl; congruence. }
  rewrite C. split; [exact Pm|]. rewrite (Rsum_perm _ _ (Permutation_map (fun p => f (fst p) (snd p)) Pm)).
  rewrite concat_map, Rsum_concat, !map_map. reflexivity.
Qed.
Print Assumptions C64_sum.

(** When no component splits the bins of another one, every bin of the merged analysis is
    where it belongs: between the two edges of its layer. *)
Theorem C64_bounds_partial : forall gs tol, 0 < tol -> (forall g, In g gs -> grid_ok tol g) -> aligned tol gs -> no_split_bins gs ->
  exists N, forall fuel, (N <= fuel)%nat -> exists es rows,
    merge_energies fuel gs tol = Some (Ok (es, rows)) /\
    forall k r j g b, nth_error rows k = Some r -> nth_error gs j = Some g -> nth_error r j = Some (Some b) ->
      exists lo hi, nth_error g b = Some lo /\ nth_error g (S b) = Some hi /\ nth_error es k = Some lo /\ nth_error es (S k) = Some hi.
Proof.
  intros gs tol Ht Hg Ha Hn. destruct (C64_grid gs tol Ht Hg) as (N & HN). exists N. intros fuel Hf.
  destruct (HN fuel Hf) as (es & rows & E & Hs & Hedge & Hall & Hlen & Hrow). exists es, rows. split; [exact E|].
  assert (Same : forall m x g, In m es -> In g gs -> In x g -> merged_into tol m x -> m = x).
  { intros m x g Im Ig Ix [M1 M2]. destruct (Hedge m Im) as (g' & Ig' & Im'). destruct (Ha g' g m x Ig' Ig Im' Ix) as [H|[H|H]]; lra. }
  intros k r j g b Er Ej Eo.
  assert (Lk : (k < length es)%nat) by (rewrite <- Hlen; apply nth_error_Some; congruence).
  destruct (nth_error es k) as [m|] eqn:Em; [|apply nth_error_None in Em; lia].
  destruct (Hrow k m r Em Er) as [_ H]. destruct (H j g Ej) as (o & Eo' & Ho). rewrite Eo in Eo'. injection Eo' as <-.
  destruct (proj1 (Ho b) eq_refl) as (Hb & lo & Elo & Hlo).
  assert (Ig : In g gs) by (eapply nth_error_In; eauto).
  destruct (nth_error g (S b)) as [hi|] eqn:Ehi; [|apply nth_error_None in Ehi; lia]. exists lo, hi. split; auto. split; auto.
  assert (m = lo). { apply (Same m lo g); auto; eapply nth_error_In; eauto. } subst m. split; auto.
  destruct (Hg g Ig) as (_ & _ & Hgap). pose proof (Hgap b (S b) lo hi ltac:(lia) Elo Ehi) as Gap.
  destruct (Hall g hi Ig ltac:(eapply nth_error_In; eauto)) as (M & IM & HM).
  assert (M = hi) by (apply (Same M hi g); auto; eapply nth_error_In; eauto). subst M.
  apply In_nth_error in IM. destruct IM as (k' & Ek').
  assert (k < k')%nat. { destruct (Nat.lt_trichotomy k k') as [C|[C|C]]; auto; [subst k'; assert (lo = hi) by congruence; lra|pose proof (Hs k' k hi lo C Ek' Em); lra]. }
  destruct (Nat.eq_dec k' (S k)) as [->|D]; [exact Ek'|].
  assert (Lk' : (k' < length es)%nat) by (apply nth_error_Some; congruence).
  destruct (nth_error es (S k)) as [x|] eqn:Ex; [|apply nth_error_None in Ex; lia]. exfalso.
  pose proof (Hs k (S k) lo x ltac:(lia) Em Ex). pose proof (Hs (S k) k' x hi ltac:(lia) Ex Ek').
  destruct (Hedge x ltac:(eapply nth_error_In; eauto)) as (g' & Ig' & Ix). apply (Hn g' g x b lo hi Ig' Ig Ix Elo Ehi). lra.
Qed.
Print Assumptions C64_bounds_partial.

Lemma two_grid a b tol : 0 < a -> b < 10 ^ 32 -> a + tol <= b -> 0 < tol -> grid_ok tol [a; b].
Proof.
  intros Ha Hb Hab Ht. split; [discriminate|]. split.
  - intros x [<-|[<-|[]]]; lra.
  - intros [|[|i]] [|[|k]] x y Hik E1 E2; simpl in E1, E2; try lia; try congruence; destruct k; try discriminate; destruct i; discriminate.
Qed.

(** When the bins of two components overlap without being the same, a whole bin is put in
    a layer that ends before the bin does. *)
Theorem C64_bounds_refuted : exists gs tol, 0 < tol /\ (forall g, In g gs -> grid_ok tol g) /\ aligned tol gs /\
  exists N, forall fuel, (N <= fuel)%nat -> exists es rows k r hi,
    merge_energies fuel gs tol = Some (Ok (es, rows)) /\ nth_error rows k = Some r /\ nth_error r 0 = Some (Some 0%nat) /\
    nth_error (hd [] gs) 1 = Some hi /\ exists m, nth_error es (S k) = Some m /\ m + tol <= hi.
Proof.
  exists [[1; 3]; [2; 4]], (1 / 2). split; [lra|].
  assert (Big : 4 < 10 ^ 32). { apply Rlt_le_trans with (10 ^ 1); [lra|]. apply Rle_pow; [lra|lia]. }
  assert (G : forall g, In g [[1; 3]; [2; 4]] -> grid_ok (1 / 2) g). { intros g [<-|[<-|[]]]; apply two_grid; lra. }
  split; [exact G|]. split.
  { intros g g' x y [<-|[<-|[]]] [<-|[<-|[]]] [<-|[<-|[]]] [<-|[<-|[]]]; lra. }
  assert (Ht : 0 < 1 / 2) by lra. destruct (C64_grid _ _ Ht G) as (N & HN). exists N. intros fuel Hf.
  destruct (HN fuel Hf) as (es & rows & E & Hs & Hedge & Hall & Hlen & Hrow).
  assert (In1 : In 1 es).
  { destruct (Hall [1; 3] 1) as (m & Im & M1 & M2); [now left|now left|]. destruct (Hedge m Im) as (g & [<-|[<-|[]]] & [<-|[<-|[]]]); try lra. exact Im. }
  assert (In2 : In 2 es).
  { destruct (Hall [2; 4] 2) as (m & Im & M1 & M2); [right; now left|now left|]. destruct (Hedge m Im) as (g & [<-|[<-|[]]] & [<-|[<-|[]]]); try lra. exact Im. }
  apply In_nth_error in In1, In2. destruct In1 as (k & Ek), In2 as (k2 & Ek2).
  assert (k < k2)%nat. { destruct (Nat.lt_trichotomy k k2) as [C|[C|C]]; auto; [subst k2; assert (1 = 2) by congruence; lra|pose proof (Hs k2 k 2 1 C Ek2 Ek); lra]. }
  assert (Lk : (k < length rows)%nat) by (rewrite Hlen; apply nth_error_Some; congruence).
  destruct (nth_error rows k) as [r|] eqn:Er; [|apply nth_error_None in Er; lia].
  destruct (Hrow k 1 r Ek Er) as [_ H0]. destruct (H0 0%nat [1; 3] eq_refl) as (o & Eo & Ho).
  assert (o = Some 0%nat). { apply Ho. split; [simpl; lia|]. exists 1. split; [reflexivity|]. split; lra. } subst o.
  exists es, rows, k, r, 3. split; [exact E|]. split; [exact Er|]. split; [exact Eo|]. split; [reflexivity|].
  assert (L2 : (k2 < length es)%nat) by (apply nth_error_Some; congruence).
  destruct (nth_error es (S k)) as [m|] eqn:Em; [|apply nth_error_None in Em; lia]. exists m. split; [reflexivity|].
  destruct (Nat.eq_dec k2 (S k)) as [->|D]; [assert (m = 2) by congruence; lra|]. pose proof (Hs (S k) k2 m 2 ltac:(lia) Em Ek2). lra.
Qed.
Print Assumptions C64_bounds_refuted.

(** Restricting a summed analysis to the merged layers [kmin, kmax) leaves every component
    with an empty range. *)
Theorem C64_klims_refuted : forall rows kmin kmax j r, nth_error rows kmin = Some r -> (j < length r)%nat ->
  exists a, set_klims rows kmin kmax j = Ok (a, a).
Proof.
  intros rows kmin kmax j r Er Hj. unfold set_klims, vec_get. rewrite Er. simpl. destruct (nth_error r j) as [[a|]|] eqn:E; simpl; eauto.
  apply nth_error_None in E. lia.
Qed.
Print Assumptions C64_klims_refuted.

(** Two components that share the edges 2 and 3, with two pixels and one pixel. *)
Example C64_case :
  let a := {| c_edges := [1; 2; 3]; c_pix := 2; c_data := [10; 11; 20; 21]%nat |} in
  let b := {| c_edges := [2; 3; 4]; c_pix := 1; c_data := [50; 60]%nat |} in
  (forall c, In c [a; b] -> comp_ok (1 / 2) c) /\ aligned (1 / 2) (map c_edges [a; b]) /\ no_split_bins (map c_edges [a; b]) /\
  layer (1 / 2) 2 [a; b] = [20; 21; 50]%nat /\
  localData 0%nat (map c_edges [a; b]) (map c_pix [a; b]) [[Some 0; None]; [Some 1; Some 0]; [None; Some 1]; [None; None]]%nat (map c_data [a; b])
    = Ok [10; 11; 20; 21; 50; 60]%nat.
Proof.
  assert (Big : 4 < 10 ^ 32). { apply Rlt_le_trans with (10 ^ 1); [lra|]. apply Rle_pow; [lra|lia]. }
  assert (G3 : forall a, 0 < a -> a + 2 <= 4 -> grid_ok (1 / 2) [a; a + 1; a + 2]).
  { intros a Ha Ha4. split; [discriminate|]. split; [intros x [<-|[<-|[<-|[]]]]; lra|].
    intros [|[|[|i]]] [|[|[|k]]] x y Hik E1 E2; simpl in E1, E2; try lia; try (destruct k; discriminate); injection E1 as <-; injection E2 as <-; lra. }
  assert (E1 : [1; 2; 3] = [1; 1 + 1; 1 + 2]) by (repeat f_equal; lra).
  assert (E2 : [2; 3; 4] = [2; 2 + 1; 2 + 2]) by (repeat f_equal; lra).
  split. { intros c [<-|[<-|[]]]; split; simpl; auto; [rewrite E1|rewrite E2]; apply G3; lra. }
  split. { intros g g' x y [<-|[<-|[]]] [<-|[<-|[]]] [<-|[<-|[<-|[]]]] [<-|[<-|[<-|[]]]]; simpl; lra. }
  split.
  { intros g g' x n lo hi [<-|[<-|[]]] [<-|[<-|[]]] [<-|[<-|[<-|[]]]] L1 L2; destruct n as [|[|[|n]]]; simpl in L1, L2; try discriminate; try (destruct n; discriminate);
      injection L1 as <-; injection L2 as <-; lra. }
  split; [|reflexivity].
  unfold layer, starting_at. simpl. repeat match goal with |- context [Rle_dec ?a ?b] => destruct (Rle_dec a b); try lra end.
  repeat match goal with |- context [Rlt_dec ?a ?b] => destruct (Rlt_dec a b); try lra end. reflexivity.
Qed.

(** Pixels, events, headers and HEALPix maps. *)
From Coq Require Import Reals Lra String Ascii.
From Verif Require Import Base AccumModel AccumProofs HistModel HistSpec HistProofs DexpSpec DexpProofs CmapModel CmapSpec CmapProofs.
Open Scope string_scope.
Open Scope list_scope.
Open Scope R_scope.

(** ** Pixels *)
Lemma push_loop {A} (f : list A -> nat -> outcome (list A)) (v : nat -> A) n :
  (forall px k, (k < n)%nat -> f px k = Ok (px ++ [v k])) -> forall px, mfold f (seq 0 n) px = Ok (px ++ map v (seq 0 n)).
Proof.
  intros Hf px. assert (K : forall m, (m <= n)%nat -> mfold f (seq 0 m) px = Ok (px ++ map v (seq 0 m))).
  { induction m as [|m IH]; intros Hm; [cbn; now rewrite app_nil_r|].
    rewrite seq_S', mfold_snoc', IH by lia. cbn [obind]. rewrite Hf by lia. now rewrite map_app, app_assoc. }
  now apply K.
Qed.
Lemma push_rows {A} (f : list A -> nat -> outcome (list A)) (r : nat -> list A) n :
  (forall px k, (k < n)%nat -> f px k = Ok (px ++ r k)) -> forall px, mfold f (seq 0 n) px = Ok (px ++ concat (map r (seq 0 n))).
Proof.
  intros Hf px. assert (K : forall m, (m <= n)%nat -> mfold f (seq 0 m) px = Ok (px ++ concat (map r (seq 0 m)))).
  { induction m as [|m IH]; intros Hm; [cbn; now rewrite app_nil_r|].
    rewrite seq_S', mfold_snoc', IH by lia. cbn [obind]. rewrite Hf by lia.
    rewrite map_app, concat_app. cbn [map concat]. now rewrite app_nil_r, app_assoc. }
  now apply K.
Qed.
Lemma nth_rows {A} (v : nat -> nat -> A) d nx ny i j : (i < nx)%nat -> (j < ny)%nat ->
  nth (j * nx + i) (concat (map (fun j => map (v j) (seq 0 nx)) (seq 0 ny))) d = v j i.
Proof.
  intros Hi Hj.
  assert (G : forall b m, (j < m)%nat -> nth (j * nx + i) (concat (map (fun j => map (v j) (seq 0 nx)) (seq b m))) d = v (b + j)%nat i).
  { clear Hj ny. induction j as [|j IH]; intros b m Hm; (destruct m as [|m]; [lia|]); cbn [seq map concat].
    - rewrite app_nth1 by (rewrite map_length, seq_length; lia). cbn [Nat.mul Nat.add]. rewrite Nat.add_0_r.
      rewrite (nth_indep _ d (v b 0%nat)) by (rewrite map_length, seq_length; lia). now rewrite map_nth, seq_nth by lia.
    - rewrite app_nth2 by (rewrite map_length, seq_length; lia). rewrite map_length, seq_length.
      replace (S j * nx + i - nx)%nat with (j * nx + i)%nat by lia. rewrite IH by lia. f_equal. lia. }
  rewrite G by auto. reflexivity.
Qed.
Lemma length_rows {A} (v : nat -> nat -> A) nx ny : length (concat (map (fun j => map (v j) (seq 0 nx)) (seq 0 ny))) = (nx * ny)%nat.
Proof.
  assert (G : forall b m, length (concat (map (fun j => map (v j) (seq 0 nx)) (seq b m))) = (nx * m)%nat).
  { intros b m. revert b. induction m as [|m IH]; intros b; cbn [seq map concat]; [cbn; lia|].
    rewrite app_length, IH, map_length, seq_length. lia. }
  apply G.
Qed.

Lemma axis_ok n : (0 < n)%nat -> axis_vector n = Ok (map (fun j => 1 / 2 + INR j) (seq 0 (S n))).
Proof. intros H. unfold axis_vector. destruct (Nat.eqb_spec n 0); [lia|]. now rewrite seq_S', map_app. Qed.
Lemma axis_nth n j : (j <= n)%nat -> nth j (map (fun j => 1 / 2 + INR j) (seq 0 (S n))) 0 = 1 / 2 + INR j.
Proof.
  intros H. rewrite (nth_indep _ 0 (1 / 2 + INR 0)) by (rewrite map_length, seq_length; lia).
  rewrite (map_nth (fun j => 1 / 2 + INR j)), seq_nth by lia. reflexivity.
Qed.

Section Pixels.
Context {Dir : Type} (sky : R -> R -> option Dir) (origin : Dir) (quad : Dir -> Dir -> Dir -> Dir -> R).

Lemma pixels_ok nx ny : (0 < nx)%nat -> (0 < ny)%nat ->
  getPixels sky origin quad nx ny =
  Ok (concat (map (fun j => map (fun i =>
        one_pixel sky origin quad (1 / 2 + INR i) (1 / 2 + INR (S i)) (1 / 2 + INR j) (1 / 2 + INR (S j))) (seq 0 nx)) (seq 0 ny))).
Proof.
  intros Hx Hy. unfold getPixels. rewrite !axis_ok by auto. cbn [obind].
  rewrite !map_length, !seq_length. replace (S ny - 1)%nat with ny by lia. replace (S nx - 1)%nat with nx by lia.
  rewrite (push_rows _ (fun j => map (fun i =>
        one_pixel sky origin quad (1 / 2 + INR i) (1 / 2 + INR (S i)) (1 / 2 + INR j) (1 / 2 + INR (S j))) (seq 0 nx)));
    [reflexivity|].
  intros px j Hj.
  rewrite !(vec_get_ok _ _ 0) by (rewrite map_length, seq_length; lia). cbn [obind]. rewrite !axis_nth by lia.
  rewrite (push_loop _ (fun i => one_pixel sky origin quad (1 / 2 + INR i) (1 / 2 + INR (S i)) (1 / 2 + INR j) (1 / 2 + INR (S j))));
    [reflexivity|].
  intros px' i Hi. rewrite !(vec_get_ok _ _ 0) by (rewrite map_length, seq_length; lia). cbn [obind]. now rewrite !axis_nth by lia.
Qed.

Lemma push_dirs_ok places : forall ds, (forall p, In p places -> sky (fst p) (snd p) <> None) ->
  exists r, push_dirs sky places ds = Ok (ds ++ r) /\ length r = length places /\
    forall d, In d r <-> exists p, In p places /\ sky (fst p) (snd p) = Some d.
Proof.
  induction places as [|p places IH]; intros ds H.
  - exists []. unfold push_dirs. cbn [mfold]. rewrite app_nil_r. split; [reflexivity|]. split; [reflexivity|].
    intros d. split; [intros []|intros (q & [] & _)].
  - unfold push_dirs. cbn [mfold]. destruct (sky (fst p) (snd p)) as [d0|] eqn:E; [|exfalso; now apply (H p (or_introl eq_refl))].
    cbn [obind]. destruct (IH (ds ++ [d0])) as (r & Er & Hl & Hr); [intros q Hq; apply H; now right|].
    unfold push_dirs in Er. rewrite Er. exists (d0 :: r). rewrite <- app_assoc. split; [reflexivity|].
    split; [cbn; lia|]. intros d. split.
    + intros [<-|Hd]; [exists p; split; [now left|exact E]|]. apply Hr in Hd as (q & Hq & Eq). exists q. split; [now right|exact Eq].
    + intros (q & [<-|Hq] & Eq); [left; congruence|right]. apply Hr. eauto.
Qed.
Lemma push_dirs_throw places : forall ds p, In p places -> sky (fst p) (snd p) = None -> push_dirs sky places ds = Throw.
Proof.
  induction places as [|q places IH]; intros ds p []; unfold push_dirs; cbn [mfold]; intros E.
  - subst q. now rewrite E.
  - destruct (sky (fst q) (snd q)); [|reflexivity]. cbn [obind]. eapply IH; eauto.
Qed.

Lemma push_dirs_cases places ds : push_dirs sky places ds = Throw \/ exists r, push_dirs sky places ds = Ok r.
Proof.
  revert ds. induction places as [|q places IH]; intros ds; unfold push_dirs; cbn [mfold]; [eauto|].
  destruct (sky (fst q) (snd q)); cbn [obind]; [apply IH|auto].
Qed.

Definition border_list (nx ny : nat) : list (R * R) :=
  map (fun j => (1 / 2 + INR 0, 1 / 2 + INR j)) (seq 0 (S ny)) ++ map (fun j => (1 / 2 + INR nx, 1 / 2 + INR j)) (seq 0 (S ny)) ++
  map (fun i => (1 / 2 + INR i, 1 / 2 + INR 0)) (seq 0 (S nx)) ++ map (fun i => (1 / 2 + INR i, 1 / 2 + INR ny)) (seq 0 (S nx)).

Lemma border_list_spec nx ny p : In p (border_list nx ny) <-> border nx ny p.
Proof.
  unfold border_list, border. rewrite !in_app_iff, !in_map_iff. split.
  - intros [(j & <- & Hj)|[(j & <- & Hj)|[(i & <- & Hi)|(i & <- & Hi)]]];
      match goal with H : In _ (seq _ _) |- _ => apply in_seq in H end.
    + exists 0%nat, j. rewrite !(Rplus_comm (1 / 2)). repeat split; auto; lia.
    + exists nx, j. rewrite !(Rplus_comm (1 / 2)). repeat split; auto; lia.
    + exists i, 0%nat. rewrite !(Rplus_comm (1 / 2)). repeat split; auto; lia.
    + exists i, ny. rewrite !(Rplus_comm (1 / 2)). repeat split; auto; lia.
  - intros (i & j & Hi & Hj & -> & [-> | [-> | [-> | ->]]]).
    + left. exists j. rewrite !(Rplus_comm (1 / 2)). split; [reflexivity|]. apply in_seq. lia.
    + right; left. exists j. rewrite !(Rplus_comm (1 / 2)). split; [reflexivity|]. apply in_seq. lia.
    + right; right; left. exists i. rewrite !(Rplus_comm (1 / 2)). split; [reflexivity|]. apply in_seq. lia.
    + right; right; right. exists i. rewrite !(Rplus_comm (1 / 2)). split; [reflexivity|]. apply in_seq. lia.
Qed.

Lemma push_dirs_app a b ds : push_dirs sky (a ++ b) ds = obind (push_dirs sky a ds) (push_dirs sky b).
Proof. unfold push_dirs. rewrite mfold_app. reflexivity. Qed.

Lemma boundary_eq nx ny : (0 < nx)%nat -> (0 < ny)%nat -> getBoundaryPixelDirs sky nx ny = push_dirs sky (border_list nx ny) [].
Proof.
  intros Hx Hy. unfold getBoundaryPixelDirs. rewrite !axis_ok by auto. cbn [obind].
  rewrite !(vec_get_ok _ _ 0) by (rewrite map_length, seq_length; lia). cbn [obind].
  rewrite !map_length, !seq_length. rewrite !axis_nth by lia.
  replace (S nx - 1)%nat with nx by lia. replace (S ny - 1)%nat with ny by lia.
  unfold border_list. rewrite !push_dirs_app, !map_map.
  destruct (push_dirs sky _ []) as [d1| |]; cbn [obind]; try reflexivity.
  rewrite push_dirs_app. destruct (push_dirs sky _ d1) as [d2| |]; cbn [obind]; try reflexivity.
  now rewrite push_dirs_app.
Qed.
End Pixels.

(** ** Numbers *)
Lemma to_int_eq x z : IZR z <= x < IZR z + 1 -> to_int x = z.
Proof. intros H. unfold to_int. rewrite <- (tech_up x (z + 1)); [lia|rewrite plus_IZR; lra|rewrite plus_IZR; lra]. Qed.

(** ** Axes *)
Lemma linear_index n x i : (i < n)%nat -> (cindex (linear_axis n) x =? Z.of_nat i)%Z = in_pixel x i.
Proof.
  intros Hi. unfold linear_axis, in_pixel, between. cbn [cindex].
  pose proof (pos_INR i) as Hp. assert (Hs : INR i + 1 <= INR n) by (rewrite <- S_INR; apply le_INR; lia).
  destruct (Rltb_spec x (1 / 2)) as [L|L].
  - destruct (Rle_dec (INR i + 1 / 2) x); [lra|]. apply Z.eqb_neq. lia.
  - destruct (Rltb_spec x (INR n + 1 / 2)) as [L2|L2].
    + destruct (archimed (x - 1 / 2)) as (A & B).
      destruct (Rle_dec (INR i + 1 / 2) x) as [C|C]; [destruct (Rlt_dec x (INR i + 3 / 2)) as [D|D]|].
      * apply Z.eqb_eq. apply to_int_eq. rewrite <- INR_IZR_INZ. lra.
      * apply Z.eqb_neq. intros E. assert (E' : up (x - 1 / 2) = (Z.of_nat i + 1)%Z) by lia.
        rewrite E', plus_IZR, <- INR_IZR_INZ in *. lra.
      * apply Z.eqb_neq. intros E. assert (E' : up (x - 1 / 2) = (Z.of_nat i + 1)%Z) by lia.
        rewrite E', plus_IZR, <- INR_IZR_INZ in *. lra.
    + destruct (Rle_dec (INR i + 1 / 2) x) as [C|C]; [|apply Z.eqb_neq; lia].
      destruct (Rlt_dec x (INR i + 3 / 2)); [lra|]. apply Z.eqb_neq. lia.
Qed.

Lemma find_bin_range es x : forall k, (0 <= k)%Z ->
  find_bin es x k = (-1)%Z \/ exists j, (j < length es - 1)%nat /\ find_bin es x k = (k + Z.of_nat j)%Z /\ nth j es 0 <= x < nth (S j) es 0.
Proof.
  induction es as [|a es IH]; intros k Hk; [now left|]. destruct es as [|b es]; [now left|].
  change (find_bin (a :: b :: es) x k) with (if Rleb a x && Rltb x b then k else find_bin (b :: es) x (k + 1)).
  destruct (Rleb_spec a x) as [A|A]; [destruct (Rltb_spec x b) as [B|B]|]; cbn [andb].
  - right. exists 0%nat. cbn [length nth]. split; [lia|]. split; [lia|lra].
  - destruct (IH (k + 1)%Z ltac:(lia)) as [E|(j & Hj & E & Hx)]; [now left|].
    right. exists (S j). cbn [length] in *. split; [lia|]. split; [rewrite E; lia|exact Hx].
  - destruct (IH (k + 1)%Z ltac:(lia)) as [E|(j & Hj & E & Hx)]; [now left|].
    right. exists (S j). cbn [length] in *. split; [lia|]. split; [rewrite E; lia|exact Hx].
Qed.
Lemma find_bin_found es x : forall j k, (j < length es - 1)%nat -> nth j es 0 <= x < nth (S j) es 0 -> (0 <= k)%Z -> find_bin es x k <> (-1)%Z.
Proof.
  induction es as [|a es IH]; intros j k Hj Hx Hk; [cbn in Hj; lia|]. destruct es as [|b es]; [cbn in Hj; lia|].
  change (find_bin (a :: b :: es) x k) with (if Rleb a x && Rltb x b then k else find_bin (b :: es) x (k + 1)).
  destruct (Rleb_spec a x) as [A|A]; [destruct (Rltb_spec x b) as [B|B]|]; cbn [andb]; [lia| |].
  - destruct j as [|j]; [cbn in Hx; lra|]. apply (IH j); cbn [length] in *; auto; lia.
  - destruct j as [|j]; [cbn in Hx; lra|]. apply (IH j); cbn [length] in *; auto; lia.
Qed.
Lemma grid_bin_unique es x i j : energy_grid es -> (i < length es - 1)%nat -> (j < length es - 1)%nat ->
  nth i es 0 <= x < nth (S i) es 0 -> nth j es 0 <= x < nth (S j) es 0 -> i = j.
Proof.
  intros Hes Hi Hj Hx Hy. destruct (Nat.lt_trichotomy i j) as [L|[L|L]]; auto; exfalso.
  - assert (nth (S i) es 0 <= nth j es 0) by (apply grid_le; auto; lia). lra.
  - assert (nth (S j) es 0 <= nth i es 0) by (apply grid_le; auto; lia). lra.
Qed.
Lemma ordered_index es x k : energy_grid es -> (k < length es - 1)%nat -> (cindex (ordered_axis es) x =? Z.of_nat k)%Z = in_bin es x k.
Proof.
  intros Hes Hk. unfold ordered_axis, in_bin, between. cbn [cindex].
  destruct (Rle_dec (nth k es 0) x) as [A|A]; [destruct (Rlt_dec x (nth (S k) es 0)) as [B|B]|].
  - apply Z.eqb_eq. destruct (find_bin_range es x 0 ltac:(lia)) as [E|(j & Hj & E & Hx)].
    + exfalso. now apply (find_bin_found es x k 0 Hk ltac:(lra) ltac:(lia)).
    + rewrite E. rewrite (grid_bin_unique es x j k Hes Hj Hk Hx ltac:(lra)). lia.
  - apply Z.eqb_neq. intros E. destruct (find_bin_range es x 0 ltac:(lia)) as [E'|(j & Hj & E' & Hx)]; [lia|].
    assert (j = k) by lia. subst j. lra.
  - apply Z.eqb_neq. intros E. destruct (find_bin_range es x 0 ltac:(lia)) as [E'|(j & Hj & E' & Hx)]; [lia|].
    assert (j = k) by lia. subst j. lra.
Qed.

(** ** Events *)
Section Events.
Variable project : R -> R -> R * R.
Definition place (e : event) : R * R := project (e_ra e) (e_dec e).

(** The event falls in cell (i, j, k). *)
Definition falls (es : list R) (i j k : nat) (e : event) : bool :=
  in_pixel (fst (place e)) i && in_pixel (snd (place e)) j && in_bin es (e_energy e) k.

Lemma falls_cell es nx ny i j k x y z : energy_grid es -> (i < nx)%nat -> (j < ny)%nat -> (k < length es - 1)%nat ->
  falls_inb [linear_axis nx; linear_axis ny; ordered_axis es] [x; y; z] [i; j; k] = in_pixel x i && in_pixel y j && in_bin es z k.
Proof.
  intros Hes Hi Hj Hk. unfold falls_inb. cbn [length Nat.eqb andb combine forallb fst snd].
  rewrite !linear_index, ordered_index by auto. cbn [nbins linear_axis ordered_axis].
  rewrite (proj2 (Nat.ltb_lt _ _) Hi), (proj2 (Nat.ltb_lt _ _) Hj), (proj2 (Nat.ltb_lt _ _) Hk).
  now rewrite !andb_true_r, andb_assoc.
Qed.

Lemma binInput_fills h evs :
  binInput project h evs = fills count_one h (map (fun e => ([fst (place e); snd (place e); e_energy e], tt)) evs).
Proof.
  unfold binInput, fills. revert h. induction evs as [|e evs IH]; intros h; [reflexivity|]. cbn [mfold map].
  cbn [fst snd]. unfold place at 1 2. destruct (fillBin _ _ _ _); cbn [obind]; auto.
Qed.

Lemma count_fold (l : list unit) : forall x, fold_left count_one l x = x + INR (length l).
Proof.
  induction l as [|u l IH]; intros x; cbn [fold_left length]; [cbn; lra|]. rewrite IH, S_INR. unfold count_one. lra.
Qed.

Lemma events_ok nx ny es h evs : energy_grid es -> wf h -> h_binners h = [linear_axis nx; linear_axis ny; ordered_axis es] ->
  exists h', binInput project h evs = Ok h' /\ wf h' /\ h_binners h' = h_binners h /\
    forall i j k, (i < nx)%nat -> (j < ny)%nat -> (k < length es - 1)%nat ->
      nth (cell_index nx ny i j k) (h_data h') 0 =
      nth (cell_index nx ny i j k) (h_data h) 0 + INR (length (filter (falls es i j k) evs)).
Proof.
  intros Hes Hw Hb. rewrite binInput_fills.
  destruct (fills_spec 0 count_one (map (fun e => ([fst (place e); snd (place e); e_energy e], tt)) evs) h Hw) as (h' & E & Hw' & Hb' & Hc).
  { apply List.Forall_forall. intros x Hx. apply in_map_iff in Hx as (e & <- & _). rewrite Hb. reflexivity. }
  exists h'. split; [exact E|]. split; [exact Hw'|]. split; [exact Hb'|].
  intros i j k Hi Hj Hk. specialize (Hc [i; j; k]). rewrite Hb in Hc.
  assert (Hr : in_range [linear_axis nx; linear_axis ny; ordered_axis es] [i; j; k]).
  { repeat constructor; cbn [nbins linear_axis ordered_axis]; auto. }
  specialize (Hc Hr).
  assert (Ei : flat [linear_axis nx; linear_axis ny; ordered_axis es] [i; j; k] = cell_index nx ny i j k).
  { unfold cell_index. cbn [flat nbins linear_axis ordered_axis]. nia. }
  rewrite Ei in Hc. rewrite Hc, count_fold. f_equal. f_equal. unfold weights_in. rewrite map_length.
  clear -Hes Hi Hj Hk. induction evs as [|e evs IH]; [reflexivity|]. cbn [map filter fst].
  rewrite (falls_cell es nx ny) by auto. fold (falls es i j k e).
  destruct (falls es i j k e); cbn [length]; auto.
Qed.
End Events.

(** ** HEALPix events *)
Lemma collect_hpx pb es v z : energy_grid es -> INR (length es - 1) <= nth 0 es 0 -> (z <= Z.of_nat (length es - 1))%Z -> forall b, (0 <= b)%Z ->
  (z < Z.of_nat (length es - 1))%Z -> collect b [pb; ordered_axis es] [v; IZR z] = None.
Proof.
  intros Hes Hlow _ b Hb Hz. cbn [collect]. destruct (_ || _); [reflexivity|].
  replace (cindex (ordered_axis es) (IZR z)) with (-1)%Z.
  { replace ((-1 <? b)%Z) with true by (symmetry; apply Z.ltb_lt; lia). reflexivity. }
  symmetry. cbn [ordered_axis cindex]. destruct (find_bin_range es (IZR z) 0 ltac:(lia)) as [E|(j & Hj & E & Hx)]; [exact E|].
  exfalso. assert (nth 0 es 0 <= nth j es 0) by (apply grid_le; auto; lia).
  apply IZR_lt in Hz. rewrite <- INR_IZR_INZ in Hz. lra.
Qed.
Lemma ordered_lt es x : energy_grid es -> (cindex (ordered_axis es) x < Z.of_nat (length es - 1))%Z.
Proof.
  intros Hes. cbn [ordered_axis cindex]. destruct (find_bin_range es x 0 ltac:(lia)) as [E|(j & Hj & E & Hx)]; [|lia].
  rewrite E. destruct Hes as (H2 & _). lia.
Qed.

(** ** Headers *)
Lemma get_set_eq k v h : get_key k (set_key k v h) = Some v.
Proof. unfold set_key. cbn [get_key]. now rewrite String.eqb_refl. Qed.
Lemma get_set_neq k k' v h : String.eqb k' k = false -> get_key k (set_key k' v h) = get_key k h.
Proof.
  intros Hk. unfold set_key. cbn [get_key]. rewrite Hk. induction h as [|(k0, v0) h IH]; [reflexivity|]. cbn [filter fst].
  destruct (String.eqb k0 k') eqn:E; cbn [negb get_key].
  - apply String.eqb_eq in E. subst k0. now rewrite Hk.
  - destruct (String.eqb k0 k); auto.
Qed.

Lemma app_assoc_s a b c : ((a ++ b) ++ c = a ++ (b ++ c))%string.
Proof. induction a as [|x a IH]; [reflexivity|]. cbn. now rewrite IH. Qed.
Lemma tokens_word s : forall acc t, word s -> tokens_from acc (s ++ t)%string = tokens_from (acc ++ s)%string t.
Proof.
  induction s as [|c s IH]; intros acc t H; cbn [word String.append] in *.
  - replace (acc ++ "")%string with acc; [reflexivity|]. induction acc as [|x acc IHa]; [reflexivity|]. cbn. now rewrite <- IHa.
  - destruct H as (Hc & H). cbn [tokens_from]. destruct (Ascii.eqb_spec c "-"); [congruence|]. rewrite IH by auto.
    rewrite app_assoc_s. reflexivity.
Qed.
Lemma tokens_end s : word s -> s <> "" -> forall acc, acc = "" -> tokens_from acc s = [s].
Proof.
  intros H Hne acc ->. replace s with (s ++ "")%string at 1.
  - rewrite tokens_word by auto. cbn [tokens_from String.append]. unfold push_piece. destruct (String.eqb_spec s ""); congruence.
  - clear. induction s as [|c s IH]; [reflexivity|]. cbn. now rewrite IH.
Qed.
Lemma tokens_two a sep p : word a -> a <> "" -> word p -> p <> "" -> (sep = "-" \/ sep = "--" \/ sep = "---") ->
  stringTokenize (a ++ sep ++ p)%string = [a; p].
Proof.
  intros Ha Hn Hp Hpn Hs. unfold stringTokenize. rewrite tokens_word by auto. cbn [String.append].
  assert (G : tokens_from "" p = [p]) by (apply tokens_end; auto).
  assert (P : push_piece a [p] = [a; p]) by (unfold push_piece; destruct (String.eqb_spec a ""); congruence).
  destruct Hs as [->|[->| ->]]; cbn [String.append tokens_from Ascii.eqb Bool.eqb]; change (push_piece "" ?l) with l;
    cbn [push_piece String.eqb]; rewrite G; exact P.
Qed.

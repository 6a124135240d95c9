(** Facts about the snapshot masks and maps. *)
From Verif Require Import Base SMap AccumModel AccumProofs SnapModel SnapSpec.
From Coq Require Import NArith Reals Lra Sorted.
Local Open Scope N_scope.

(** ** Masks *)
Lemma flag_lor a b m : flag (N.lor a b) m = flag a m || flag b m.
Proof.
  unfold flag. rewrite N.land_lor_distr_l.
  destruct (N.eqb_spec (N.land a m) 0) as [->|Ha]; simpl; [reflexivity|].
  destruct (N.eqb_spec (N.lor (N.land a m) (N.land b m)) 0) as [E|E]; auto. apply N.lor_eq_0_iff in E. tauto.
Qed.
Lemma changed_lor a b : changed (N.lor a b) = changed a || changed b.
Proof.
  unfold changed. destruct (N.eqb_spec a 0) as [->|Ha]; simpl; [reflexivity|].
  destruct (N.eqb_spec (N.lor a b) 0) as [E|E]; auto. apply N.lor_eq_0_iff in E. tauto.
Qed.

(** The bits of one parameter. *)
Definition pst (v s p f : bool) : N :=
  N.lor (N.lor (N.lor (if v then 1 else 0) (if s then 2 else 0)) (if p then 4 else 0))
        (if v || s || p then if f then 8 else 16 else 0).
Definition b_val (p q : par) := moved (p_val p) (p_val q).
Definition b_free (p q : par) := negb (Bool.eqb (p_free p) (p_free q)).
Definition b_pri (p q : par) := compare_priors p q.
Lemma pst_of (p q : par) (f : bool) :
  (let ps := parameter_status p q in if negb (ps =? 0) then N.lor ps (if f then Fixed_Changed else Free_Changed) else ps)
  = pst (b_val p q) (b_free p q) (b_pri p q) f.
Proof.
  cbv zeta. unfold parameter_status, b_val, b_free, b_pri.
  destruct (moved _ _), (negb (Bool.eqb _ _)), (compare_priors _ _), f; reflexivity.
Qed.
Lemma pst_lor v s p v' s' p' f : N.lor (pst v s p f) (pst v' s' p' f) = pst (v || v') (s || s') (p || p') f.
Proof. destruct v, s, p, v', s', p', f; reflexivity. Qed.
Lemma pst0 f : pst false false false f = 0.
Proof. reflexivity. Qed.
Lemma norm_of (p q : par) (f : bool) : compare_norm p q f =
  N.lor (pst (b_val p q) (b_free p q) (b_pri p q) f) (if b_free p q then if f then Source_Freed else Source_Fixed else 0).
Proof.
  unfold compare_norm. cbv zeta.
  assert (E : (if negb (parameter_status p q =? 0) then N.lor (parameter_status p q) (if f then Fixed_Changed else Free_Changed) else parameter_status p q) = pst (b_val p q) (b_free p q) (b_pri p q) f) by apply (pst_of p q f).
  rewrite E. destruct (b_val p q), (b_free p q), (b_pri p q), f; reflexivity.
Qed.

(** ** Comparisons of values *)
Lemma moved_spec v w : moved v w = true <-> value_moved v w.
Proof. unfold moved, value_moved. destruct (Rltb_spec ((Rabs v + Rabs w) * (1 / 100000)) (Rabs (v - w))); split; intros; try discriminate; try reflexivity; lra. Qed.
Lemma moved_same v : moved v v = false.
Proof.
  destruct (moved v v) eqn:E; auto. apply moved_spec in E. unfold value_moved in E. rewrite Rminus_diag_eq, Rabs_R0 in E by reflexivity.
  pose proof (Rabs_pos v). lra.
Qed.
Lemma b_free_spec p q : b_free p q = true <-> p_free p <> p_free q.
Proof. unfold b_free. destruct (p_free p), (p_free q); simpl; split; congruence. Qed.
Lemma prior_loop_spec l m : length l = length m -> prior_loop l m = true <->
  ~ (map fst l = map fst m /\ forall i v w, nth_error (map snd l) i = Some v -> nth_error (map snd m) i = Some w -> ~ value_moved v w).
Proof.
  revert m. induction l as [|[n v] l IH]; intros [|[n' v'] m] H; simpl in *; try discriminate.
  - split; [discriminate|]. intros X. exfalso. apply X. split; auto. intros [|i]; discriminate.
  - destruct (Z.eqb_spec n n') as [->|Hn]; simpl.
    + destruct (moved v v') eqn:E.
      * split; auto. intros _ [_ X]. apply (X 0%nat v v'); auto. now apply moved_spec.
      * rewrite (IH m) by lia. split; intros X Y; apply X.
        -- destruct Y as [Y1 Y2]. split; [congruence|]. intros i. apply (Y2 (S i)).
        -- destruct Y as [Y1 Y2]. split; [congruence|]. intros [|i] a b A B; simpl in *.
           ++ injection A as <-. injection B as <-. intros C. apply moved_spec in C. congruence.
           ++ eapply Y2; eauto.
    + split; auto. intros _ [X _]. congruence.
Qed.
Lemma b_pri_spec p q : b_pri p q = true <-> prior_moved (p_prior p) (p_prior q).
Proof.
  unfold b_pri, compare_priors, prior_moved. destruct (p_prior p) as [[t l]|], (p_prior q) as [[t' m]|]; try tauto.
  - destruct (Nat.eqb_spec (length l) (length m)) as [E|E]; simpl.
    + now apply prior_loop_spec.
    + split; auto. intros _ [X _]. apply (f_equal (@length _)) in X. rewrite !map_length in X. congruence.
  - split; [discriminate|tauto].
Qed.
Definition b_moved p q := b_val p q || b_free p q || b_pri p q.
Lemma b_moved_spec p q : b_moved p q = true <-> par_moved p q.
Proof.
  unfold b_moved, par_moved. rewrite !Bool.orb_true_iff, b_free_spec, b_pri_spec. unfold b_val. rewrite moved_spec. tauto.
Qed.
Lemma b_pri_same p : b_pri p p = false.
Proof.
  unfold b_pri, compare_priors. destruct (p_prior p) as [[t l]|]; auto. rewrite Nat.eqb_refl. simpl.
  induction l as [|[n v] l IH]; simpl; auto. rewrite Z.eqb_refl, moved_same. simpl. auto.
Qed.
Lemma b_moved_same p : b_moved p p = false.
Proof. unfold b_moved, b_val, b_free. rewrite moved_same, b_pri_same, Bool.eqb_reflx. reflexivity. Qed.

(** ** The maps *)
Definition to_map (l : list par) : @smap par := fold_left (fun m p => minsert (p_name p) p m) l [].
Lemma fold_insert (l : list par) : forall m : @smap par, sorted m ->
  NoDup (map p_name l) -> (forall p, In p l -> mfind (p_name p) m = None) ->
  let r := fold_left (fun m p => minsert (p_name p) p m) l m in
  sorted r /\ forall k p, mfind k r = Some p <-> (In p l /\ p_name p = k) \/ mfind k m = Some p.
Proof.
  induction l as [|p l IH]; intros m Hs Hn Hd; simpl.
  - split; auto. intros k q. split; [auto|]. intros [[[] _]|H]; auto.
  - inversion Hn as [|? ? N1 N2]; subst. destruct (IH (minsert (p_name p) p m)) as [A B]; auto.
    + now apply sorted_insert.
    + intros q Hq. rewrite mfind_insert_neq. { apply Hd. now right. } intros E. apply N1. rewrite <- E. now apply in_map.
    + split; auto. intros k q. rewrite B. split.
      * intros [[H1 H2]|H]; [left; split; [now right|auto]|]. destruct (Z.eq_dec k (p_name p)) as [->|Hk].
        -- rewrite mfind_insert_eq in H. injection H as <-. left. split; [now left|auto].
        -- rewrite mfind_insert_neq in H by auto. auto.
      * intros [[[<-|H1] H2]|H].
        -- right. subst k. now rewrite mfind_insert_eq.
        -- left. auto.
        -- right. destruct (Z.eq_dec k (p_name p)) as [->|Hk]; [|now rewrite mfind_insert_neq].
           rewrite (Hd p) in H by now left. discriminate.
Qed.
Lemma to_map_sorted l : NoDup (map p_name l) -> sorted (to_map l).
Proof. intros H. apply (fold_insert l []); auto. constructor. Qed.
Lemma to_map_find l k p : NoDup (map p_name l) -> mfind k (to_map l) = Some p <-> In p l /\ p_name p = k.
Proof.
  intros H. destruct (fold_insert l []) as [_ B]; auto. { constructor. } unfold to_map. rewrite B. simpl. split; [|auto]. intros [X|X]; [auto|discriminate].
Qed.
Lemma to_map_keys l k : NoDup (map p_name l) -> In k (mkeys (to_map l)) <-> In k (map p_name l).
Proof.
  intros H. destruct (mfind k (to_map l)) as [p|] eqn:E.
  - pose proof E as E'. apply to_map_find in E'; auto. destruct E' as [A <-]. split; intros _; [now apply in_map|].
    apply mfind_in in E. unfold mkeys. change (p_name p) with (fst (p_name p, p)). now apply in_map.
  - split; intros X.
    + apply mfind_none in E. tauto.
    + apply in_map_iff in X. destruct X as (p & <- & Hp). assert (mfind (p_name p) (to_map l) = Some p) by (apply to_map_find; auto). congruence.
Qed.
Lemma spectral_map s : extract_spectral s = to_map (shape_pars s).
Proof.
  unfold extract_spectral, to_map, shape_pars. generalize (@nil (Z * par)). induction (s_pars s) as [|p l IH]; intros m; simpl; auto.
  destruct (p_name p =? p_name (s_norm s))%Z; simpl; auto.
Qed.
Lemma spatial_map s name m : extract_spatial s name m =
  ((name ++ map fst (space_funcs s))%list, fold_left (fun m p => minsert (p_name p) p m) (space_pars s) m).
Proof.
  unfold extract_spatial, space_pars, space_funcs. revert name m. induction (s_funcs s) as [|[k l] fs IH]; intros name m; simpl.
  - now rewrite app_nil_r.
  - destruct (k =? spec_key)%Z; simpl; [apply IH|]. rewrite IH. f_equal; [now rewrite <- app_assoc|]. now rewrite fold_left_app.
Qed.

(** Sorted maps with the same keys have them in the same places. *)
Lemma sorted_keys_eq (a b : @smap par) : sorted a -> sorted b -> (forall k, In k (mkeys a) <-> In k (mkeys b)) -> mkeys a = mkeys b.
Proof.
  unfold sorted. generalize (mkeys a) (mkeys b). clear. intros a. induction a as [|x a IH]; intros [|y b] Ha Hb H.
  - reflexivity.
  - exfalso. apply (H y). now left.
  - exfalso. apply (H x). now left.
  - inversion Ha as [|? ? A1 A2]; inversion Hb as [|? ? B1 B2]; subst. rewrite Forall_forall in A2, B2.
    assert (x = y). { destruct (proj1 (H x) (or_introl eq_refl)) as [E|E]; auto. destruct (proj2 (H y) (or_introl eq_refl)) as [E'|E']; auto.
      apply A2 in E'. apply B2 in E. lia. }
    subst y. f_equal. apply IH; auto. intros k. split; intros K.
    + destruct (proj1 (H k) (or_intror K)) as [E|E]; auto. subst k. apply A2 in K. lia.
    + destruct (proj2 (H k) (or_intror K)) as [E|E]; auto. subst k. apply B2 in K. lia.
Qed.

(** ** The loop over two maps *)
Definition any (f : par -> par -> bool) (a b : @smap par) : bool :=
  existsb (fun e => f (snd (fst e)) (snd (snd e))) (combine a b).
Lemma any_cons f k p a k' q b : any f ((k, p) :: a) ((k', q) :: b) = f p q || any f a b.
Proof. reflexivity. Qed.
Lemma loop_same ty off fx (a b : @smap par) : forall v s p, mkeys a = mkeys b ->
  compare_loop ty off fx (pst v s p fx) a b =
  Ok (N.shiftl (pst (v || any b_val a b) (s || any b_free a b) (p || any b_pri a b) fx) off).
Proof.
  revert b. induction a as [|[k x] a IH]; intros [|[k' y] b] v s p H; try discriminate H.
  - simpl. unfold any. simpl. now rewrite !Bool.orb_false_r.
  - simpl in H. injection H as -> H. simpl. rewrite Z.eqb_refl. simpl.
    assert (E : (if negb (parameter_status x y =? 0) then N.lor (parameter_status x y) (if fx then Fixed_Changed else Free_Changed) else parameter_status x y) = pst (b_val x y) (b_free x y) (b_pri x y) fx) by apply (pst_of x y fx).
    rewrite E, pst_lor, (IH b) by auto. rewrite !any_cons, !Bool.orb_assoc. reflexivity.
Qed.
Lemma loop_diff ty off fx (a b : @smap par) : forall v s p, length a = length b -> mkeys a <> mkeys b ->
  exists v' s' p', compare_loop ty off fx (pst v s p fx) a b = Ok (N.lor (pst v' s' p' fx) ty).
Proof.
  revert b. induction a as [|[k x] a IH]; intros [|[k' y] b] v s p L H; try discriminate L; [congruence|].
  simpl. destruct (Z.eqb_spec k k') as [->|Hk]; simpl.
  - assert (E : (if negb (parameter_status x y =? 0) then N.lor (parameter_status x y) (if fx then Fixed_Changed else Free_Changed) else parameter_status x y) = pst (b_val x y) (b_free x y) (b_pri x y) fx) by apply (pst_of x y fx).
    rewrite E, pst_lor. apply IH; auto. simpl in H. congruence.
  - eexists _, _, _. reflexivity.
Qed.
Lemma any_spec f l m : NoDup (map p_name l) -> NoDup (map p_name m) -> same_names l m ->
  any f (to_map l) (to_map m) = true <-> exists p q, In p l /\ In q m /\ p_name p = p_name q /\ f p q = true.
Proof.
  intros Hl Hm Hs.
  assert (K : mkeys (to_map l) = mkeys (to_map m)).
  { apply sorted_keys_eq; try now apply to_map_sorted. intros k. rewrite !to_map_keys by auto. apply Hs. }
  assert (A : forall a b : @smap par, mkeys a = mkeys b -> sorted a -> sorted b ->
     any f a b = true <-> exists k p q, mfind k a = Some p /\ mfind k b = Some q /\ f p q = true).
  { clear. induction a as [|[k x] a IH]; intros [|[k' y] b] E Sa Sb; try discriminate E.
    - split; [discriminate|]. intros (k & p & q & H & _). discriminate.
    - simpl in E. injection E as -> E. rewrite any_cons, Bool.orb_true_iff.
      apply sorted_cons in Sa. apply sorted_cons in Sb. destruct Sa as [Sa Fa], Sb as [Sb Fb]. rewrite (IH b) by auto. split.
      + intros [H|(k & p & q & H1 & H2 & H3)].
        * exists k', x, y. simpl. rewrite Z.eqb_refl. auto.
        * exists k, p, q. simpl. destruct (Z.eqb_spec k k') as [->|]; auto. exfalso. rewrite Forall_forall in Fa.
          apply mfind_in in H1. apply (in_map fst) in H1. apply Fa in H1. simpl in H1. lia.
      + intros (k & p & q & H1 & H2 & H3). simpl in *. destruct (Z.eqb_spec k k') as [->|].
        * injection H1 as <-. injection H2 as <-. auto.
        * right. exists k, p, q. auto. }
  rewrite A; auto; try now apply to_map_sorted. split.
  - intros (k & p & q & H1 & H2 & H3). apply to_map_find in H1, H2; auto. destruct H1 as [H1 E1], H2 as [H2 E2]. exists p, q. repeat split; auto. congruence.
  - intros (p & q & H1 & H2 & H3 & H4). exists (p_name p), p, q. rewrite !to_map_find by auto. repeat split; auto.
Qed.
Lemma any_or f g a b : any (fun p q => f p q || g p q) a b = any f a b || any g a b.
Proof.
  unfold any. induction (combine a b) as [|e l IH]; simpl; auto. rewrite IH. destruct (f _ _), (g _ _), (existsb _ l); simpl; auto; now rewrite ?Bool.orb_true_r.
Qed.

(** ** Sources *)
Lemma shape_nodup s : well_named s -> NoDup (map p_name (shape_pars s)).
Proof.
  intros [H _]. unfold shape_pars. induction (s_pars s) as [|p l IH]; simpl in *; [constructor|]. inversion H as [|? ? A B]; subst.
  destruct (negb _); simpl; auto. constructor; auto. intros X. apply A. apply in_map_iff in X. destruct X as (q & E & X). apply filter_In in X.
  rewrite <- E. apply in_map. tauto.
Qed.
Lemma names_keys l m : NoDup (map p_name l) -> NoDup (map p_name m) -> mkeys (to_map l) = mkeys (to_map m) <-> same_names l m.
Proof.
  intros Hl Hm. split; intros H.
  - intros n. rewrite <- !to_map_keys by auto. now rewrite H.
  - apply sorted_keys_eq; try now apply to_map_sorted. intros k. rewrite !to_map_keys by auto. apply H.
Qed.

Definition sp_type (f : bool) := N.lor Spec_Model_Type_Changed (if f then Fixed_Spec_Model_Type_Changed else Free_Spec_Model_Type_Changed).
Definition xp_type (f : bool) := N.lor Spatial_Model_Type_Changed (if f then Fixed_Spatial_Model_Type_Changed else Free_Spatial_Model_Type_Changed).
Lemma map_length_keys (a b : @smap par) : mkeys a = mkeys b -> length a = length b.
Proof. intros H. apply (f_equal (@length _)) in H. unfold mkeys in H. now rewrite !map_length in H. Qed.

Lemma spectral_ok k1 k2 l m fx : NoDup (map p_name l) -> NoDup (map p_name m) ->
  exists r, compare_spectral k1 k2 (to_map l) (to_map m) fx = Ok r /\
    ((k1 = k2 /\ same_names l m /\
      r = N.shiftl (pst (any b_val (to_map l) (to_map m)) (any b_free (to_map l) (to_map m)) (any b_pri (to_map l) (to_map m)) fx) Spec_Offset) \/
     (~ (k1 = k2 /\ same_names l m) /\ exists v s p, r = N.lor (pst v s p fx) (sp_type fx))).
Proof.
  intros Hl Hm. unfold compare_spectral. cbv zeta. destruct (Z.eqb_spec k1 k2) as [->|Hk]; cbn [negb orb].
  2: { eexists. split; [reflexivity|]. right. split; [tauto|]. exists false, false, false. reflexivity. }
  destruct (Nat.eqb_spec (length (to_map l)) (length (to_map m))) as [E|E]; cbn [negb orb].
  2: { eexists. split; [reflexivity|]. right. split; [|exists false, false, false; reflexivity]. intros [_ X]. apply E. apply map_length_keys. now apply names_keys. }
  destruct (list_eq_dec Z.eq_dec (mkeys (to_map l)) (mkeys (to_map m))) as [K|K].
  - pose proof (loop_same (sp_type fx) Spec_Offset fx _ _ false false false K) as X. unfold sp_type in X. rewrite pst0 in X. rewrite X. eexists. split; [reflexivity|]. left. split; auto. split; auto. now apply names_keys.
  - destruct (loop_diff (sp_type fx) Spec_Offset fx _ _ false false false E K) as (v & s & p & X). unfold sp_type in X. rewrite pst0 in X. rewrite X.
    eexists. split; [reflexivity|]. right. split; [|eauto]. intros [_ Y]. apply K. now apply names_keys.
Qed.
Lemma spatial_ok k1 k2 l m fx : NoDup (map p_name l) -> NoDup (map p_name m) ->
  exists r, compare_spatial k1 k2 (to_map l) (to_map m) fx = Ok r /\
    ((k1 = k2 /\ same_names l m /\
      r = N.shiftl (pst (any b_val (to_map l) (to_map m)) (any b_free (to_map l) (to_map m)) (any b_pri (to_map l) (to_map m)) fx) Spatial_Offset) \/
     (~ (k1 = k2 /\ same_names l m) /\ exists v s p, r = N.lor (pst v s p fx) (xp_type fx))).
Proof.
  intros Hl Hm. unfold compare_spatial. cbv zeta. destruct (list_eq_dec Z.eq_dec k1 k2) as [->|Hk]; cbn [negb orb].
  2: { eexists. split; [reflexivity|]. right. split; [tauto|]. exists false, false, false. reflexivity. }
  destruct (Nat.eqb_spec (length (to_map l)) (length (to_map m))) as [E|E]; cbn [negb orb].
  2: { eexists. split; [reflexivity|]. right. split; [|exists false, false, false; reflexivity]. intros [_ X]. apply E. apply map_length_keys. now apply names_keys. }
  destruct (list_eq_dec Z.eq_dec (mkeys (to_map l)) (mkeys (to_map m))) as [K|K].
  - pose proof (loop_same (xp_type fx) Spatial_Offset fx _ _ false false false K) as X. unfold xp_type in X. rewrite pst0 in X. rewrite X. eexists. split; [reflexivity|]. left. split; auto. split; auto. now apply names_keys.
  - destruct (loop_diff (xp_type fx) Spatial_Offset fx _ _ false false false E K) as (v & s & p & X). unfold xp_type in X. rewrite pst0 in X. rewrite X.
    eexists. split; [reflexivity|]. right. split; [|eauto]. intros [_ Y]. apply K. now apply names_keys.
Qed.

(** ** Comparing a source with a freshly latched one *)
Definition latched (a : src) : ssrc := latch_source ss_empty a true.
Lemma compare_ok a b : well_named a -> well_named b ->
  let fx := negb (p_free (s_norm a)) in
  exists sp xp, compare (latched a) b = Ok (N.lor (N.lor (compare_norm (s_norm a) (s_norm b) fx) sp) xp) /\
    ((same_spectral_type a b /\ exists v s p, sp = N.shiftl (pst v s p fx) Spec_Offset /\ (v || s || p = true <-> some_moved (shape_pars a) (shape_pars b))) \/
     (~ same_spectral_type a b /\ exists v s p, sp = N.lor (pst v s p fx) (sp_type fx))) /\
    ((same_spatial_type a b /\ exists v s p, xp = N.shiftl (pst v s p fx) Spatial_Offset /\ (v || s || p = true <-> some_moved (space_pars a) (space_pars b))) \/
     (~ same_spatial_type a b /\ exists v s p, xp = N.lor (pst v s p fx) (xp_type fx))).
Proof.
  intros Ha Hb fx. pose proof (shape_nodup a Ha) as A1. pose proof (shape_nodup b Hb) as B1. destruct Ha as [_ A2], Hb as [_ B2].
  unfold compare, latched, latch_source. cbn [ss_norm ss_fixed ss_kind ss_spec ss_shape ss_spat ss_owned ss_empty]. rewrite !spatial_map, !spectral_map. cbn [fst snd app].
  change (fold_left (fun m p => minsert (p_name p) p m) (space_pars a) []) with (to_map (space_pars a)).
  change (fold_left (fun m p => minsert (p_name p) p m) (space_pars b) []) with (to_map (space_pars b)).
  fold fx. destruct (spectral_ok (s_kind a) (s_kind b) _ _ fx A1 B1) as (sp & -> & SP).
  destruct (spatial_ok (map fst (space_funcs a)) (map fst (space_funcs b)) _ _ fx A2 B2) as (xp & -> & XP).
  assert (M : forall l m, NoDup (map p_name l) -> NoDup (map p_name m) -> same_names l m ->
     any b_val (to_map l) (to_map m) || any b_free (to_map l) (to_map m) || any b_pri (to_map l) (to_map m) = true <-> some_moved l m).
  { intros l m Hl Hm Hs. rewrite <- !any_or. rewrite any_spec by auto. unfold some_moved. split; intros (p & q & H1 & H2 & H3 & H4); exists p, q; repeat split; auto; now apply b_moved_spec. }
  exists sp, xp. split; [reflexivity|]. split.
  - destruct SP as [(K & S & ->)|[K H]]; [left|right; auto]. split; [split; auto|]. eexists _, _, _. split; [reflexivity|]. now apply M.
  - destruct XP as [(K & S & ->)|[K H]]; [left|right; auto]. split; [split; auto|]. eexists _, _, _. split; [reflexivity|]. now apply M.
Qed.

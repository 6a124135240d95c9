From Coq Require Import String Ascii List Bool PeanoNat Lia.
From Verif Require Import Base MlibModel MlibSpec.
Import ListNotations.
Local Open Scope list_scope.

Lemma lfind_lrem_eq n t : lfind n (lrem n t) = None.
Proof. induction t as [|[m p] t IH]; simpl; auto. destruct (String.eqb_spec m n); auto. simpl. destruct (String.eqb_spec m n); congruence. Qed.
Lemma lfind_lrem_neq n m t : n <> m -> lfind m (lrem n t) = lfind m t.
Proof.
  intros N. induction t as [|[k p] t IH]; simpl; auto. destruct (String.eqb_spec k n); simpl.
  - subst. destruct (String.eqb_spec n m); congruence.
  - destruct (String.eqb_spec k m); auto.
Qed.
Lemma lfind_lset_eq n p t : lfind n (lset n p t) = Some p.
Proof. simpl. now rewrite String.eqb_refl. Qed.
Lemma lfind_lset_neq n m p t : n <> m -> lfind m (lset n p t) = lfind m t.
Proof. intros N. simpl. destruct (String.eqb_spec n m); [congruence|]. now apply lfind_lrem_neq. Qed.

(** The invariant. *)
Record Inv (w : world) : Prop := {
  lib_live : forall k p, lfind k (library w) = Some p -> live w p = true;
  lib_inj : forall k k' p, lfind k (library w) = Some p -> lfind k' (library w) = Some p -> k = k';
  held : forall o b p, the w o = Ok b -> proj b = Some p -> lfind (key (expanded b) (ext b)) (library w) = Some p /\ In o (observers w);
  watch : forall o, In o (observers w) -> exists b, the w o = Ok b }.

Lemma the_some w o b : the w o = Ok b <-> nth_error (objs w) o = Some (Some b).
Proof. unfold the. destruct (nth_error (objs w) o) as [[x|]|]; split; intros E; try discriminate; injection E as <-; reflexivity. Qed.
Lemma the_ok w o : exists_obj w o -> exists b, the w o = Ok b.
Proof. intros (b & H). exists b. now apply the_some. Qed.
Lemma the_set w o b o' : (exists x, the w o = Ok x) -> the (set w o b) o' = if Nat.eqb o' o then Ok b else the w o'.
Proof.
  intros (x & H). unfold the, set. simpl. destruct (Nat.eqb_spec o' o) as [->|N].
  - rewrite nth_error_upd_eq; auto. apply the_some in H. apply nth_error_Some. congruence.
  - now rewrite nth_error_upd_neq by auto.
Qed.

Definition cleared (b : obj) : obj := {| file := file b; expanded := expanded b; ext := ext b; proj := None |}.
Definition told (w : world) (b : obj) : obj := if has_map w (expanded b) (ext b) then b else cleared b.
Lemma told_told w b : told w (told w b) = told w b.
Proof. unfold told. destruct (has_map w (expanded b) (ext b)) eqn:E; rewrite ?E; auto. unfold cleared. simpl. rewrite E. reflexivity. Qed.

Lemma notify_each_spec : forall os w, (forall o, In o os -> exists b, the w o = Ok b) ->
  exists w', notify_each w os = Ok w' /\ maps w' = maps w /\ library w' = library w /\ observers w' = observers w /\
  forall o, the w' o = match the w o with Ok b => Ok (if in_dec Nat.eq_dec o os then told w b else b) | r => r end.
Proof.
  induction os as [|o os IH]; intros w H; simpl.
  - exists w. repeat split; auto. intros o. destruct (the w o); auto.
  - destruct (H o ltac:(left; auto)) as (b & E).
    assert (U : exists w1, update w o = Ok w1 /\ maps w1 = maps w /\ library w1 = library w /\ observers w1 = observers w /\ forall o', the w1 o' = if Nat.eqb o' o then Ok (told w b) else the w o').
    { unfold update. rewrite E. simpl. unfold told. eexists; split; [reflexivity|]. destruct (has_map w (expanded b) (ext b)).
      - repeat split; auto. intros o'. destruct (Nat.eqb_spec o' o) as [->|]; auto.
      - repeat split; auto. intros o'. apply the_set. eauto. }
    destruct U as (w1 & U & M1 & L1 & O1 & T1). rewrite U. simpl.
    destruct (IH w1) as (w' & N & M & L & O & T).
    { intros o' I. rewrite T1. destruct (Nat.eqb o' o); eauto. apply H. now right. }
    exists w'. rewrite N. repeat split; try congruence. intros o'. rewrite T, T1.
    assert (Tw : forall x, told w1 x = told w x) by (intros x; unfold told, has_map; now rewrite L1).
    destruct (Nat.eqb_spec o' o) as [->|Ne].
    + rewrite E. rewrite !Tw, told_told. destruct (in_dec Nat.eq_dec o os), (Nat.eq_dec o o); try congruence; reflexivity.
    + destruct (the w o') as [x| |]; auto. rewrite Tw. destruct (Nat.eq_dec o o'); [congruence|]. destruct (in_dec Nat.eq_dec o' os); reflexivity.
Qed.

(** *** Deleting *)
Lemma live_free w p w' q : free w p = Ok w' -> live w' q = if Nat.eqb q p then false else live w q.
Proof.
  unfold free. destruct (live w p) eqn:L; [|discriminate]. intros E; injection E as <-. unfold live. simpl. destruct (Nat.eqb_spec q p) as [->|N].
  - rewrite nth_error_upd_eq. reflexivity. unfold live in L. apply nth_error_Some. intros Z. rewrite Z in L. discriminate.
  - now rewrite nth_error_upd_neq by auto.
Qed.
Lemma delete_map_spec w f e : Inv w -> exists w', delete_map w f e = Ok w' /\ Inv w' /\ observers w' = observers w /\
  (forall k, lfind k (library w') = if String.eqb k (key f e) then None else lfind k (library w)) /\
  (forall p, map_at w' p = if match lfind (key f e) (library w) with Some q => Nat.eqb p q | None => false end then None else map_at w p) /\
  (forall o, the w' o = match the w o with Ok b => Ok (if in_dec Nat.eq_dec o (observers w) then told w' b else b) | r => r end).
Proof.
  intros I. unfold delete_map.
  assert (X : exists w1, (match lfind (key f e) (library w) with Some p => obind (free w p) (fun w' => notify (with_lib w' (lrem (key f e) (library w')))) | None => notify w end) = notify w1 /\
     objs w1 = objs w /\ observers w1 = observers w /\ (forall k, lfind k (library w1) = if String.eqb k (key f e) then None else lfind k (library w)) /\
     (forall p, live w1 p = if match lfind (key f e) (library w) with Some q => Nat.eqb p q | None => false end then false else live w p) /\
     (forall p, map_at w1 p = if match lfind (key f e) (library w) with Some q => Nat.eqb p q | None => false end then None else map_at w p)).
  { destruct (lfind (key f e) (library w)) as [p|] eqn:F.
    - pose proof (lib_live w I _ _ F) as L. unfold free. rewrite L. eexists. split; [reflexivity|]. repeat split.
      + intros k. simpl. destruct (String.eqb_spec k (key f e)) as [->|N]. apply lfind_lrem_eq. apply lfind_lrem_neq; auto.
      + intros q. apply (live_free w p (with_maps w (upd (maps w) p None)) q). unfold free. now rewrite L.
      + intros q. unfold map_at. simpl. destruct (Nat.eqb_spec q p) as [->|N]; [|now rewrite nth_error_upd_neq by auto]. rewrite nth_error_upd_eq; auto.
        unfold live in L. apply nth_error_Some. intros Z. rewrite Z in L. discriminate.
    - exists w. split; auto. repeat split; auto. intros k. destruct (String.eqb_spec k (key f e)) as [->|]; auto. }
  destruct X as (w1 & -> & O1 & Ob1 & L1 & V1 & P1).
  assert (T1 : forall o, the w1 o = the w o) by (intros o; unfold the; now rewrite O1).
  destruct (notify_each_spec (observers w1) w1) as (w' & N & M & L & O & T). { intros o H. rewrite T1. apply (watch w I). congruence. }
  exists w'. unfold notify. split; [exact N|].
  assert (Tw : forall b, told w' b = told w1 b) by (intros b; unfold told, has_map; now rewrite L).
  assert (Th : forall o, the w' o = match the w o with Ok b => Ok (if in_dec Nat.eq_dec o (observers w) then told w' b else b) | r => r end).
  { intros o. rewrite T, T1, Ob1. destruct (the w o); auto. now rewrite Tw. }
  split; [|split; [congruence|split; [intros k; rewrite L; apply L1|split; [intros p; rewrite <- P1; unfold map_at; now rewrite M|exact Th]]]].
  assert (V : forall p, live w' p = live w1 p) by (intros p; unfold live; now rewrite M).
  constructor.
  - intros k p F. rewrite L, L1 in F. destruct (String.eqb_spec k (key f e)) as [|Nk]; [discriminate|]. rewrite V, V1. pose proof (lib_live w I _ _ F).
    destruct (lfind (key f e) (library w)) as [q|] eqn:Fq; auto. destruct (Nat.eqb_spec p q) as [->|]; auto. elim Nk. eapply (lib_inj w I); eauto.
  - intros k k' p F F'. rewrite L, L1 in F, F'. destruct (String.eqb k (key f e)), (String.eqb k' (key f e)); try discriminate. eapply (lib_inj w I); eauto.
  - intros o b p E Ep. rewrite Th in E. destruct (the w o) as [b0| |] eqn:E0; try discriminate. injection E as E. rewrite O, Ob1.
    assert (Eb : b = b0 /\ (In o (observers w) -> has_map w' (expanded b0) (ext b0) = true)).
    { destruct (in_dec Nat.eq_dec o (observers w)) as [Hi|Hi]; [|split; [congruence|tauto]]. unfold told in E. destruct (has_map w' (expanded b0) (ext b0)); [auto|].
      subst b. discriminate. }
    destruct Eb as (-> & Eh). destruct (held w I o b0 p E0 Ep) as (F & Ho). specialize (Eh Ho). unfold has_map in Eh. rewrite L, L1 in *.
    destruct (String.eqb (key (expanded b0) (ext b0)) (key f e)); [discriminate|]. auto.
  - intros o H. rewrite O, Ob1 in H. destruct (watch w I o H) as (b & E). rewrite Th, E. eauto.
Qed.

(** *** Loading *)
Lemma live_new w i p : live (fst (new_map w i)) p = if Nat.eqb p (length (maps w)) then true else live w p.
Proof.
  unfold live, new_map. simpl. destruct (Nat.eqb_spec p (length (maps w))) as [->|N].
  - rewrite nth_error_app2, Nat.sub_diag by lia. reflexivity.
  - destruct (Nat.lt_ge_cases p (length (maps w))).
    + now rewrite nth_error_app1 by lia.
    + rewrite (proj2 (nth_error_None _ _)) by (rewrite app_length; simpl; lia). rewrite (proj2 (nth_error_None _ _)) by lia. reflexivity.
Qed.
Lemma live_lt w p : live w p = true -> p < length (maps w).
Proof. unfold live. intros L. apply nth_error_Some. destruct (nth_error (maps w) p); congruence. Qed.
Lemma wcsmap_spec w f e ok w' r : (forall k p, lfind k (library w) = Some p -> live w p = true) -> (forall k k' p, lfind k (library w) = Some p -> lfind k' (library w) = Some p -> k = k') ->
  wcsmap w f e ok = (w', r) ->
  (forall k p, lfind k (library w') = Some p -> live w' p = true) /\ (forall k k' p, lfind k (library w') = Some p -> lfind k' (library w') = Some p -> k = k') /\
  objs w' = objs w /\ observers w' = observers w /\ r <> UB /\ (r = Throw -> w' = w /\ ok = false /\ lfind (key f e) (library w) = None) /\
  (forall p, r = Ok p -> lfind (key f e) (library w') = Some p /\
     (lfind (key f e) (library w) = None -> map_at w' p = Some {| from := (f, e); factors := [] |}) /\ (forall q, lfind (key f e) (library w) = Some q -> q = p)) /\
  (forall k, k <> key f e -> lfind k (library w') = lfind k (library w)) /\ (forall p i, map_at w p = Some i -> map_at w' p = Some i).
Proof.
  intros A B. unfold wcsmap. destruct (lfind (key f e) (library w)) as [p|] eqn:F.
  - intros E; injection E as <- <-. repeat split; auto; try congruence.
  - destruct ok; [|intros E; injection E as <- <-; repeat split; auto; congruence].
    simpl. intros E; injection E as <- <-. set (n := length (maps w)).
    assert (Fn : forall k p, lfind k (lset (key f e) n (library w)) = Some p -> (k = key f e /\ p = n) \/ (k <> key f e /\ lfind k (library w) = Some p /\ p < n)).
    { intros k p H. destruct (String.eqb_spec (key f e) k) as [<-|N].
      - rewrite lfind_lset_eq in H. injection H as <-. auto.
      - rewrite lfind_lset_neq in H by auto. right. repeat split; auto. apply live_lt. eauto. }
    split; [|split; [|split; [reflexivity|split; [reflexivity|split; [congruence|split; [congruence|split; [|split]]]]]]].
    + intros k p H. destruct (Fn _ _ H) as [(_ & ->)|(_ & H' & _)].
      * unfold live. simpl. subst n. rewrite nth_error_app2, Nat.sub_diag by lia. reflexivity.
      * pose proof (live_new w {| from := (f, e); factors := [] |} p) as Q. unfold live in *. simpl in *. rewrite Q. destruct (Nat.eqb p (length (maps w))); auto. apply (A _ _ H').
    + intros k k' p H H'. destruct (Fn _ _ H) as [(-> & ->)|(N & H1 & P1)]; destruct (Fn _ _ H') as [(-> & E)|(N' & H2 & P2)]; try lia; auto. eapply B; eauto.
    + intros p E; injection E as <-. split; [apply lfind_lset_eq|]. split; [|congruence]. intros _. unfold map_at. simpl. subst n. rewrite nth_error_app2, Nat.sub_diag by lia. reflexivity.
    + intros k N. apply lfind_lset_neq. auto.
    + intros p i H. unfold map_at in *. simpl. destruct (nth_error (maps w) p) as [x|] eqn:Ex; [|discriminate]. rewrite nth_error_app1 by (apply nth_error_Some; congruence). now rewrite Ex.
Qed.
Lemma inv_wcsmap w f e ok : Inv w -> Inv (fst (wcsmap w f e ok)).
Proof.
  intros I. destruct (wcsmap w f e ok) as (w', r) eqn:E. destruct (wcsmap_spec w f e ok w' r (lib_live w I) (lib_inj w I) E) as (A & B & O & Ob & _ & _ & R & K & _). simpl.
  assert (T : forall o, the w' o = the w o) by (intros o; unfold the; now rewrite O). constructor; auto.
  - intros o b p Eo Ep. rewrite T in Eo. rewrite Ob. destruct (held w I o b p Eo Ep) as (F & Ho). split; auto.
    destruct (String.eqb_spec (key (expanded b) (ext b)) (key f e)) as [Ek|Nk]; [|rewrite K; auto].
    rewrite Ek in *. unfold wcsmap in E. rewrite F in E. injection E as <- <-. exact F.
  - intros o H. rewrite T. apply (watch w I). congruence.
Qed.

(** Setting an object that holds no map, or with its map in the library. *)
Lemma inv_set w o b : Inv w -> (exists x, the w o = Ok x) -> (forall p, proj b = Some p -> lfind (key (expanded b) (ext b)) (library w) = Some p /\ In o (observers w)) -> Inv (set w o b).
Proof.
  intros I X H. constructor; try apply I.
  - intros o' b' p E Ep. rewrite the_set in E by auto. destruct (Nat.eqb_spec o' o) as [->|N]. injection E as <-. auto. apply (held w I o' b' p E Ep).
  - intros o' Ho. rewrite the_set by auto. destruct (Nat.eqb o' o); eauto. apply (watch w I o' Ho).
Qed.
Lemma inv_add w o : Inv w -> (exists x, the w o = Ok x) -> Inv (add_observer w o) /\ In o (observers (add_observer w o)) /\ library (add_observer w o) = library w /\ maps (add_observer w o) = maps w /\
  objs (add_observer w o) = objs w.
Proof.
  intros I X. unfold add_observer. destruct (existsb (Nat.eqb o) (observers w)) eqn:E.
  - split; [exact I|]. split; [|auto]. apply existsb_exists in E. destruct E as (y & Hy & Ey). apply Nat.eqb_eq in Ey. subst y. exact Hy.
  - split; [|simpl; auto]. constructor; simpl; try apply I.
    + intros o' b p Eo Ep. destruct (held w I o' b p Eo Ep). auto.
    + intros o' [<-|Hq]; auto. apply (watch w I o' Hq).
Qed.
Lemma set_add w o b : add_observer (set w o b) o = set (add_observer w o) o b.
Proof. unfold add_observer, set. simpl. destruct (existsb (Nat.eqb o) (observers w)); reflexivity. Qed.

Section Steps.
Variable expand : string -> string.

Lemma read_spec w o ok b : Inv w -> the w o = Ok b -> (proj b = None \/ ok = true) ->
  Inv (fst (read expand w o ok)) /\ snd (read expand w o ok) <> UB /\
  (snd (read expand w o ok) = Ok tt -> exists p, the (fst (read expand w o ok)) o = Ok {| file := file b; expanded := expand (file b); ext := ext b; proj := Some p |} /\
     lfind (key (expand (file b)) (ext b)) (library (fst (read expand w o ok))) = Some p) /\
  (snd (read expand w o ok) = Throw -> library (fst (read expand w o ok)) = library w) /\
  (forall k p, lfind k (library w) = Some p -> lfind k (library (fst (read expand w o ok))) = Some p) /\ (forall p i, map_at w p = Some i -> map_at (fst (read expand w o ok)) p = Some i) /\
  (forall o', o' <> o -> the (fst (read expand w o ok)) o' = the w o') /\ ext b = match the (fst (read expand w o ok)) o with Ok x => ext x | _ => ext b end /\
  (forall k p, lfind k (library (fst (read expand w o ok))) = Some p -> lfind k (library w) = None -> k = key (expand (file b)) (ext b) /\ map_at (fst (read expand w o ok)) p = Some {| from := (expand (file b), ext b); factors := [] |}).
Proof.
  intros I E H. unfold read. rewrite E. set (x := expand (file b)). set (w1 := set w o {| file := file b; expanded := x; ext := ext b; proj := proj b |}).
  destruct (wcsmap w1 x (ext b) ok) as (w2, r) eqn:W.
  assert (X : exists y, the w o = Ok y) by eauto.
  assert (T1 : forall o', the w1 o' = if Nat.eqb o' o then Ok {| file := file b; expanded := x; ext := ext b; proj := proj b |} else the w o') by (intros; apply the_set; auto).
  destruct (wcsmap_spec w1 x (ext b) ok w2 r) as (A & B & O & Ob & U & Th & R & K & Mp); [exact (lib_live w I)|exact (lib_inj w I)|exact W|].
  assert (T2 : forall o', the w2 o' = the w1 o') by (intros o'; unfold the; now rewrite O).
  assert (Keep : forall k p, lfind k (library w) = Some p -> lfind k (library w2) = Some p).
  { intros k p F. destruct (String.eqb_spec k (key x (ext b))) as [->|N]; [|rewrite K; auto]. unfold wcsmap in W. change (library w1) with (library w) in W. rewrite F in W. injection W as <- <-. exact F. }
  destruct r as [p| |]; [|destruct (Th eq_refl) as (-> & Eok & Fn)|congruence].
  - (* the map was found or read *)
    destruct (R p eq_refl) as (F & Fnew & Fold).
    set (b' := {| file := file b; expanded := x; ext := ext b; proj := Some p |}).
    assert (I2 : Inv (set w2 o (cleared b'))).
    { constructor.
      - exact A.
      - exact B.
      - intros o' y q Eo Ep. rewrite the_set in Eo by (rewrite T2, T1, Nat.eqb_refl; eauto). destruct (Nat.eqb_spec o' o) as [->|N]. injection Eo as <-. discriminate.
        rewrite T2, T1 in Eo. destruct (Nat.eqb_spec o' o) as [|_]; [congruence|]. simpl library. simpl observers. rewrite Ob. change (observers w1) with (observers w).
        destruct (held w I o' y q Eo Ep) as (F' & Ho). split; auto.
      - intros o' Ho. rewrite the_set by (rewrite T2, T1, Nat.eqb_refl; eauto). destruct (Nat.eqb_spec o' o) as [|N]; eauto. rewrite T2, T1. destruct (Nat.eqb_spec o' o); [congruence|]. apply (watch w I). simpl in Ho. rewrite Ob in Ho. exact Ho. }
    assert (Ex : exists y, the (set w2 o (cleared b')) o = Ok y) by (rewrite the_set by (rewrite T2, T1, Nat.eqb_refl; eauto); rewrite Nat.eqb_refl; eauto).
    destruct (inv_add _ o I2 Ex) as (I3 & Ho3 & L3 & M3 & O3).
    assert (Eq : add_observer (set w2 o b') o = set (add_observer (set w2 o (cleared b')) o) o b').
    { rewrite <- set_add. unfold set. simpl. unfold with_objs. simpl. f_equal. f_equal.
      clear. generalize (objs w2). intros l. revert o. induction l; intros [|o]; simpl; auto. f_equal; auto. }
    cbn [fst snd]. rewrite Eq.
    assert (Ex3 : exists y, the (add_observer (set w2 o (cleared b')) o) o = Ok y) by (unfold the in *; rewrite O3; exact Ex).
    split; [|split; [congruence|split; [|split; [congruence|split; [|split; [|split; [|split]]]]]]].
    + apply inv_set; auto. intros q Eq'. simpl in Eq'. injection Eq' as <-. split; auto. rewrite L3. exact F.
    + intros _. exists p. split. rewrite the_set, Nat.eqb_refl by auto. reflexivity. simpl library. rewrite L3. exact F.
    + intros k q Fk. simpl library. rewrite L3. simpl. auto.
    + intros q i Hq. unfold map_at in *. simpl maps. rewrite M3. simpl. apply Mp. exact Hq.
    + intros o' N. rewrite the_set by auto. destruct (Nat.eqb_spec o' o); [congruence|]. unfold the. rewrite O3. simpl. rewrite nth_error_upd_neq by auto. rewrite O. simpl. rewrite nth_error_upd_neq by auto. reflexivity.
    + rewrite the_set, Nat.eqb_refl by auto. reflexivity.
    + intros k q F1 F2. simpl library in F1. rewrite L3 in F1. simpl in F1. destruct (String.eqb_spec k (key x (ext b))) as [->|N]; [|rewrite K in F1 by auto; change (library w1) with (library w) in F1; congruence].
      split; auto. rewrite F in F1. injection F1 as <-. unfold map_at in *. simpl maps. rewrite M3. simpl. apply Fnew. exact F2.
  - (* it threw *)
    destruct H as [H|H]; [|congruence]. cbn [fst snd]. split; [|split; [congruence|split; [congruence|split; [auto|split; [auto|split; [auto|split; [|split]]]]]]].
    + apply inv_set; auto. intros q Eq. simpl in Eq. congruence.
    + intros o' N. rewrite T1. destruct (Nat.eqb_spec o' o); [congruence|reflexivity].
    + rewrite T1, Nat.eqb_refl. reflexivity.
    + intros k q F1 F2. change (library w1) with (library w) in F1. congruence.
Qed.
End Steps.

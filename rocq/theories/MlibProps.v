(** C42: the map library returns live maps, and the right ones. *)
From Coq Require Import String Ascii List Bool PeanoNat Lia.
From Verif Require Import Base MlibModel MlibSpec MlibProofs.
Import ListNotations.
Local Open Scope list_scope.

Section Steps.
Variable expand : string -> string.

(** What one usual call does to the library. *)
Definition lib_step (w : world) (o : op) (w' : world) : Prop :=
  (forall k p, lfind k (library w) = Some p -> (forall f e, k = key f e -> ~ deletes f e w o) -> lfind k (library w') = Some p) /\
  (forall k p, lfind k (library w') = Some p -> lfind k (library w) = Some p /\ map_at w' p = map_at w p \/
     exists f e, k = key f e /\ map_at w' p = Some {| from := (f, e); factors := [] |} /\
       match o with Wcsmap f' e' _ => f = f' /\ e = e' | ReadFile _ f' e' _ _ => e = e' | Projmap b _ => exists x, the w b = Ok x /\ e = ext x | _ => False end).

Lemma lib_map_some w k p : Inv w -> lfind k (library w) = Some p -> exists i, map_at w p = Some i.
Proof. intros I F. pose proof (lib_live w I k p F) as L. unfold live in L. unfold map_at. destruct (nth_error (maps w) p) as [[i|]|]; try discriminate. eauto. Qed.

Lemma lib_read w o ok b w0 : Inv w -> the w o = Ok b -> (proj b = None \/ ok = true) -> library w0 = library w -> maps w0 = maps w ->
  let w' := fst (read expand w o ok) in
  (forall k p, lfind k (library w0) = Some p -> lfind k (library w') = Some p) /\
  (forall k p, lfind k (library w') = Some p -> lfind k (library w0) = Some p /\ map_at w' p = map_at w0 p \/ exists f, k = key f (ext b) /\ map_at w' p = Some {| from := (f, ext b); factors := [] |}).
Proof.
  intros I E H L0 M0. simpl. destruct (read_spec expand w o ok b I E H) as (_ & _ & _ & _ & K & Mp & _ & _ & N). rewrite L0. split; auto.
  intros k p F. destruct (lfind k (library w)) as [q|] eqn:Fq.
  - left. pose proof (K _ _ Fq) as F'. rewrite F in F'. injection F' as <-. split; auto. destruct (lib_map_some w k p I Fq) as (i & Ei). rewrite (Mp _ _ Ei). unfold map_at in *. now rewrite M0.
  - right. destruct (N _ _ F Fq) as (-> & Q). eauto.
Qed.

Lemma upd_upd {T} (l : list T) : forall i x y, upd (upd l i x) i y = upd l i y.
Proof. induction l; intros [|i] x y; simpl; auto. f_equal; auto. Qed.
Lemma read_irrel w o y : (exists x, the w o = Ok x) -> read expand (set w o y) o true = read expand (set w o (cleared y)) o true.
Proof.
  intros X. unfold read. rewrite !the_set, Nat.eqb_refl by auto. unfold wcsmap. simpl library. simpl. destruct (lfind (key (expand (file y)) (ext y)) (library w)) as [p|].
  - unfold add_observer, set. simpl. rewrite !upd_upd. reflexivity.
  - unfold add_observer, set. simpl. rewrite !upd_upd. reflexivity.
Qed.
Lemma step_ok w o : Inv w -> usual w o -> Inv (fst (exec expand w o)) /\ snd (exec expand w o) <> UB /\ lib_step w o (fst (exec expand w o)).
Proof.
  intros I U. destruct o as [f e ok|f e|p|f e|b|a b|b|b f e load ok|b ok|b|b n]; simpl in U; try contradiction.
  - (* wcsmap *) pose proof (inv_wcsmap w f e ok I) as I'. simpl. destruct (wcsmap w f e ok) as (w', r) eqn:E. simpl in *.
    destruct (wcsmap_spec w f e ok w' r (lib_live w I) (lib_inj w I) E) as (_ & _ & _ & _ & Ub & Th & R & K & Mp). split; auto. split. destruct r; simpl; congruence. split.
    + intros k p F _. destruct (String.eqb_spec k (key f e)) as [->|N]; [|rewrite K; auto]. unfold wcsmap in E. rewrite F in E. injection E as <- <-. exact F.
    + intros k p F. destruct (String.eqb_spec k (key f e)) as [->|N].
      * destruct (lfind (key f e) (library w)) as [q|] eqn:Fq.
        -- left. unfold wcsmap in E. rewrite Fq in E. injection E as <- <-. split; congruence.
        -- right. exists f, e. split; auto. destruct r as [p'| |]; [|destruct (Th eq_refl) as (-> & _); congruence|congruence]. destruct (R p' eq_refl) as (F' & Q & _). rewrite F in F'. injection F' as <-. auto.
      * left. rewrite K in F by auto. split; auto. destruct (lib_map_some w k p I F) as (i & Ei). now rewrite (Mp _ _ Ei), Ei.
  - (* delete_map *) destruct (delete_map_spec w f e I) as (w' & E & I' & _ & L & M & _). simpl. rewrite E. simpl. split; auto. split; [congruence|]. split.
    + intros k p F D. rewrite L. destruct (String.eqb_spec k (key f e)) as [->|]; auto. elim (D f e eq_refl). simpl. reflexivity.
    + intros k p F. rewrite L in F. destruct (String.eqb_spec k (key f e)) as [|N]; [discriminate|]. left. split; auto. rewrite M.
      destruct (lfind (key f e) (library w)) as [q|] eqn:Fq; auto. destruct (Nat.eqb_spec p q) as [->|]; auto. elim N. eapply (lib_inj w I); eauto.
  - (* new object *) simpl. split; [|split; [congruence|split; [auto|intros; left; auto]]].
    assert (T : forall o b, the w o = Ok b -> the (with_objs w (objs w ++ [Some {| file := f; expanded := ""; ext := e; proj := None |}])) o = Ok b).
    { intros o b. rewrite !the_some. simpl. intros H. rewrite nth_error_app1; auto. apply nth_error_Some. congruence. }
    constructor; try apply I.
    + intros o b p Eo Ep. apply the_some in Eo. simpl in Eo. destruct (Nat.lt_ge_cases o (length (objs w))) as [H|H].
      * rewrite nth_error_app1 in Eo by auto. apply (held w I o b p); auto. now apply the_some.
      * rewrite nth_error_app2 in Eo by auto. destruct (o - length (objs w)); simpl in Eo; [injection Eo as <-; discriminate|destruct n; discriminate].
    + intros o H. destruct (watch w I o H) as (b & E). exists b. auto.
  - (* destroyed object *) destruct (the_ok w b U) as (x & E). simpl. unfold destroy. rewrite E. simpl. split; [|split; [congruence|split; [auto|intros; left; auto]]].
    constructor; try apply I.
    + intros o y p Eo Ep. apply the_some in Eo. simpl in Eo. destruct (Nat.eq_dec b o) as [->|N].
      * rewrite nth_error_upd_eq in Eo; [discriminate|]. apply the_some in E. apply nth_error_Some. congruence.
      * rewrite nth_error_upd_neq in Eo by auto. apply the_some in Eo. destruct (held w I o y p Eo Ep) as (F & Ho). split; auto. simpl. apply in_in_remove; auto.
    + intros o H. simpl in H. apply in_remove in H. destruct H as (H & N). destruct (watch w I o H) as (y & Ey). exists y. apply the_some. simpl. rewrite nth_error_upd_neq by auto. now apply the_some.
  - (* reading a file *) destruct U as (X & Hp). destruct (the_ok w b X) as (x & E). simpl. unfold read_file. rewrite E.
    set (y := {| file := f; expanded := expanded x; ext := e; proj := proj x |}). destruct load.
    + (* then read it *)
      assert (Ey : the (set w b (cleared y)) b = Ok (cleared y)) by (rewrite the_set, Nat.eqb_refl by eauto; reflexivity).
      assert (Iy : Inv (set w b (cleared y))) by (apply inv_set; eauto; discriminate).
      assert (Eq : read expand (set w b y) b ok = read expand (set w b (cleared y)) b ok).
      { destruct Hp as [Hp|Hp]. apply andb_prop in Hp. destruct Hp as (_ & ->). apply read_irrel; eauto. unfold cleared. simpl. assert (Q : proj x = None) by (apply Hp; now apply the_some). unfold y. rewrite Q. reflexivity. }
      rewrite Eq. destruct (read_spec expand _ b ok _ Iy Ey ltac:(left; reflexivity)) as (R1 & R2 & _).
      destruct (lib_read (set w b (cleared y)) b ok _ w Iy Ey ltac:(left; reflexivity) eq_refl eq_refl) as (R3 & R4).
      destruct (read expand (set w b (cleared y)) b ok) as (w', r). simpl in *. split; auto. split. destruct r; simpl; congruence. split; auto.
      intros k p F. destruct (R4 k p F) as [Q|(f' & Q1 & Q2)]; [left; auto|right]. exists f', e. auto.
    + (* or not *)
      simpl in *. destruct Hp as [Hp|Hp]; [discriminate|]. assert (Q : proj x = None) by (apply Hp; now apply the_some). split; [|split; [congruence|split; [auto|intros; left; auto]]].
      apply inv_set; eauto. intros p Ep. simpl in Ep. congruence.
  - (* using the map *) destruct (the_ok w b U) as (x & E). simpl. unfold projmap. rewrite E. destruct (proj x) as [p|] eqn:Ep.
    + destruct (held w I b x p E Ep) as (F & _). rewrite (lib_live w I _ _ F). simpl. split; auto. split; [congruence|split; [auto|intros; left; auto]].
    + destruct (read_spec expand w b ok x I E ltac:(left; auto)) as (R1 & R2 & R2' & _).
      destruct (lib_read w b ok x w I E ltac:(left; auto) eq_refl eq_refl) as (R3 & R4). destruct (read expand w b ok) as (w', r). simpl in *.
      assert (Lb : lib_step w (Projmap b ok) w').
      { split; auto. intros k p F. destruct (R4 k p F) as [Q|(f' & Q1 & Q2)]; [left; auto|right]. exists f', (ext x). eauto. }
      destruct r as [[]| |]; [|simpl; split; auto; split; [congruence|auto]|congruence]. destruct (R2' eq_refl) as (p & E' & F). rewrite E'. simpl. rewrite (lib_live w' R1 _ _ F). simpl. split; auto. split; [congruence|auto].
  - (* dropping the map of an object *) destruct (the_ok w b U) as (x & E). simpl. unfold deleteMap. rewrite E. simpl.
    destruct (delete_map_spec w (expanded x) (ext x) I) as (w' & D & I' & _ & L & M & T). rewrite D. simpl.
    assert (X : exists y, the w' b = Ok y) by (rewrite T, E; eauto). destruct X as (y & Ey). rewrite Ey. simpl. split; [|split; [congruence|split]].
    + apply inv_set; eauto. discriminate.
    + intros k p F N. simpl. rewrite L. destruct (String.eqb_spec k (key (expanded x) (ext x))) as [->|]; auto. elim (N _ _ eq_refl). simpl. exists x. split; auto. now apply the_some.
    + intros k p F. simpl in F. rewrite L in F. destruct (String.eqb_spec k (key (expanded x) (ext x))) as [|N]; [discriminate|]. left. split; auto. enough (Q : map_at w' p = map_at w p) by exact Q. rewrite M.
      destruct (lfind (key (expanded x) (ext x)) (library w)) as [q|] eqn:Fq; auto. destruct (Nat.eqb_spec p q) as [->|]; auto. elim N. eapply (lib_inj w I); eauto.
Qed.

Lemma execs_app a : forall b w, fst (execs expand w (a ++ b)) = fst (execs expand (fst (execs expand w a)) b).
Proof.
  induction a as [|o a IH]; intros b w; simpl; auto. destruct (exec expand w o) as (w1, r). specialize (IH b w1). destruct (execs expand w1 (a ++ b)), (execs expand w1 a). exact IH.
Qed.
Lemma throughout_app ok a : forall b w, throughout expand ok w (a ++ b) <-> throughout expand ok w a /\ throughout expand ok (fst (execs expand w a)) b.
Proof.
  induction a as [|o a IH]; intros b w; simpl; [tauto|]. rewrite IH. destruct (exec expand w o) as (w1, r). simpl. destruct (execs expand w1 a). simpl. tauto.
Qed.
Lemma run_ok : forall ops w, Inv w -> throughout expand usual w ops -> Inv (fst (execs expand w ops)) /\ Forall (fun r => r <> UB) (snd (execs expand w ops)).
Proof.
  induction ops as [|o ops IH]; intros w I T; simpl; [auto|]. destruct T as (U & T). destruct (step_ok w o I U) as (I1 & N & _). destruct (exec expand w o) as (w1, r). simpl in *.
  destruct (IH w1 I1 T) as (I2 & F). destruct (execs expand w1 ops). simpl in *. auto.
Qed.
End Steps.
Lemma start_inv : Inv start.
Proof. constructor; simpl; try discriminate; try tauto. intros o b p E. destruct o; discriminate. Qed.
Lemma throughout_weaken expand (P Q : world -> op -> Prop) : (forall w o, P w o -> Q w o) -> forall ops w, throughout expand P w ops -> throughout expand Q w ops.
Proof. intros H. induction ops as [|o ops IH]; simpl; auto. intros w (A & B). auto. Qed.

(** Through any history of the usual calls (not copies of objects, deletion by address, rebinning, or reading that fails while another map is held,
    see below) nothing that is gone is used, and at its end every object that has a map has one that exists: the one the library has
    for its file and extension. *)
Theorem C42_history_partial : forall expand ops, throughout expand usual start ops ->
  Forall (fun r => r <> UB) (results expand ops) /\
  forall o b p, nth_error (objs (after expand ops)) o = Some (Some b) -> proj b = Some p ->
    live (after expand ops) p = true /\ wcsmap (after expand ops) (expanded b) (ext b) true = (after expand ops, Ok p).
Proof.
  intros expand ops T. destruct (run_ok expand ops start start_inv T) as (I & F). split; auto. intros o b p E Ep. unfold after. apply the_some in E. destruct (held _ I o b p E Ep) as (Fd & _).
  split. apply (lib_live _ I _ _ Fd). unfold wcsmap. now rewrite Fd.
Qed.
Print Assumptions C42_history_partial.

(** The library returns the same map, and it exists, until it is deleted. *)
Theorem C42_same_map : forall expand before between f e ok p ok', throughout expand usual start (before ++ Wcsmap f e ok :: between) ->
  snd (wcsmap (after expand before) f e ok) = Ok p ->
  throughout expand (fun w o => ~ deletes f e w o) (fst (wcsmap (after expand before) f e ok)) between ->
  let w := after expand (before ++ Wcsmap f e ok :: between) in wcsmap w f e ok' = (w, Ok p) /\ live w p = true.
Proof.
  intros expand before between f e ok p ok' T W D. simpl. destruct (run_ok expand _ start start_inv T) as (I & _). fold (after expand (before ++ Wcsmap f e ok :: between)) in I.
  enough (F : lfind (key f e) (library (after expand (before ++ Wcsmap f e ok :: between))) = Some p). { split. unfold wcsmap. now rewrite F. apply (lib_live _ I _ _ F). }
  apply throughout_app in T. destruct T as (T1 & T2). unfold after. rewrite execs_app. destruct (run_ok expand _ start start_inv T1) as (I1 & _). fold (after expand before) in I1, T2 |- *.
  simpl in T2 |- *. destruct T2 as (_ & T2). pose proof (inv_wcsmap (after expand before) f e ok I1) as I2. destruct (wcsmap (after expand before) f e ok) as (w1, r) eqn:E. simpl in *. subst r.
  destruct (wcsmap_spec _ f e ok w1 (Ok p) (lib_live _ I1) (lib_inj _ I1) E) as (_ & _ & _ & _ & _ & _ & R & _). destruct (R p eq_refl) as (F & _). clear R E I1 T1 I.
  revert w1 I2 F T2 D. induction between as [|o ops IH]; intros w1 I2 F T2 D; simpl in *; auto. destruct T2 as (U & T2). destruct D as (N & D). destruct (step_ok expand w1 o I2 U) as (I3 & _ & (L & _)).
  assert (F3 : lfind (key f e) (library (fst (exec expand w1 o))) = Some p).
  { apply L; auto. intros f' e' Ek Dl. apply N. destruct o; simpl in *; try contradiction. congruence. destruct Dl as (x & A & B). exists x. split; auto. congruence. }
  destruct (exec expand w1 o) as (w2, r2). simpl in *. specialize (IH w2 I3 F3 T2 D). destruct (execs expand w2 ops). exact IH.
Qed.
Print Assumptions C42_same_map.

(** has_map tells what is loaded: true after wcsmap has returned, false after delete_map, and unchanged for other names by both. *)
Theorem C42_has_map : forall expand ops, throughout expand usual start ops -> let w := after expand ops in forall f e,
  (forall ok w' p, wcsmap w f e ok = (w', Ok p) -> has_map w' f e = true /\ live w' p = true /\ forall f' e', key f' e' <> key f e -> has_map w' f' e' = has_map w f' e') /\
  (forall ok w', wcsmap w f e ok = (w', Throw) -> has_map w f e = false /\ w' = w) /\
  exists w', delete_map w f e = Ok w' /\ has_map w' f e = false /\ forall f' e', key f' e' <> key f e -> has_map w' f' e' = has_map w f' e'.
Proof.
  intros expand ops T w f e. destruct (run_ok expand ops start start_inv T) as (I & _). fold (after expand ops) in I. fold w in I. unfold has_map. split; [|split].
  - intros ok w' p E. destruct (wcsmap_spec w f e ok w' (Ok p) (lib_live w I) (lib_inj w I) E) as (A & _ & _ & _ & _ & _ & R & K & _). destruct (R p eq_refl) as (F & _).
    rewrite F. repeat split. eapply A; eauto. intros f' e' N. now rewrite K.
  - intros ok w' E. destruct (wcsmap_spec w f e ok w' Throw (lib_live w I) (lib_inj w I) E) as (_ & _ & _ & _ & _ & Th & _). destruct (Th eq_refl) as (-> & _ & ->). auto.
  - destruct (delete_map_spec w f e I) as (w' & E & _ & _ & L & _). exists w'. split; auto. split. now rewrite L, String.eqb_refl. intros f' e' N. rewrite L. destruct (String.eqb_spec (key f' e') (key f e)); congruence.
Qed.
Print Assumptions C42_has_map.

(** *** The right file *)
Lemma key_list f e : list_ascii_of_string (key f e) = list_ascii_of_string f ++ [":"%char; ":"%char] ++ list_ascii_of_string e.
Proof. unfold key. induction f as [|c f IH]. reflexivity. simpl. f_equal. exact IH. Qed.
Lemma tails (c : ascii) : forall a b x y, ~ In c a -> ~ In c b -> a ++ c :: x = b ++ c :: y -> a = b /\ x = y.
Proof.
  induction a as [|u a IH]; intros [|v b] x y Na Nb E; simpl in *.
  - injection E as <-. auto.
  - injection E as <- _. tauto.
  - injection E as -> _. tauto.
  - injection E as <- E. destruct (IH b x y) as (<- & <-); auto.
Qed.
Lemma key_inj f e f' e' : colon_free e -> colon_free e' -> key f e = key f' e' -> f = f' /\ e = e'.
Proof.
  intros C C' E. assert (L : list_ascii_of_string (key f e) = list_ascii_of_string (key f' e')) by congruence. rewrite !key_list in L. apply (f_equal (@rev ascii)) in L. rewrite !rev_app_distr in L. simpl in L.
  rewrite <- !app_assoc in L. simpl in L. apply tails in L; [|unfold colon_free in *; rewrite <- in_rev; auto..]. destruct L as (L1 & L2). injection L2 as L2.
  assert (S : forall a b, list_ascii_of_string a = list_ascii_of_string b -> a = b). { intros a b H. rewrite <- (string_of_list_ascii_of_string a), <- (string_of_list_ascii_of_string b), H. reflexivity. }
  split; apply S; [rewrite <- (rev_involutive (list_ascii_of_string f)), <- (rev_involutive (list_ascii_of_string f')); congruence|].
  rewrite <- (rev_involutive (list_ascii_of_string e)), <- (rev_involutive (list_ascii_of_string e')). congruence.
Qed.
(** If no extension name has a colon in it, the map returned for a file and extension is the one read from there ... *)
Theorem C42_right_file_partial : forall expand ops f e ok w' p, throughout expand (fun w o => usual w o /\ plain_names w o) start ops -> colon_free e ->
  wcsmap (after expand ops) f e ok = (w', Ok p) -> map_at w' p = Some {| from := (f, e); factors := [] |}.
Proof.
  intros expand ops f e ok w' p T C W.
  set (good := fun w => (forall k q, lfind k (library w) = Some q -> exists f e, k = key f e /\ colon_free e /\ map_at w q = Some {| from := (f, e); factors := [] |}) /\ (forall o b, the w o = Ok b -> colon_free (ext b))).
  assert (G : forall ops w, Inv w -> good w -> throughout expand (fun w o => usual w o /\ plain_names w o) w ops -> good (fst (execs expand w ops)) /\ Inv (fst (execs expand w ops))).
  { clear. induction ops as [|o ops IH]; intros w I G T; simpl; [auto|]. destruct T as ((U & P) & T). destruct (step_ok expand w o I U) as (I1 & _ & (_ & L)).
    assert (G1 : good (fst (exec expand w o))).
    { destruct G as (G & G'). split.
      - intros k q F. destruct (L k q F) as [(F' & M)|(f & e & -> & M & Q)].
        + destruct (G k q F') as (f & e & A & B & D). exists f, e. rewrite M. auto.
        + exists f, e. split; auto. split; auto. destruct o; simpl in *; try contradiction. destruct Q as (-> & ->). auto. subst e. auto. destruct Q as (x & Ex & ->). eapply G'; eauto.
      - clear L IH T. intros o' b' E'. destruct o as [f e ok|f e|q|f e|b|a b|b|b f e load ok|b ok|b|b n]; simpl in *; try contradiction.
        + destruct (wcsmap w f e ok) as (w', r) eqn:W. destruct (wcsmap_spec w f e ok w' r (lib_live w I) (lib_inj w I) W) as (_ & _ & O & _). apply (G' o'). unfold the in *. simpl in E'. now rewrite O in E'.
        + destruct (delete_map_spec w f e I) as (w' & D & _ & _ & _ & _ & Th). rewrite D in E'. simpl in E'. rewrite Th in E'. destruct (the w o') as [x| |] eqn:Ex; try discriminate. injection E' as <-.
          destruct (in_dec Nat.eq_dec o' (observers w)); [unfold told; destruct (has_map w' (expanded x) (ext x))|]; apply (G' o' x Ex).
        + apply the_some in E'. simpl in E'. destruct (Nat.lt_ge_cases o' (length (objs w))) as [H|H].
          * rewrite nth_error_app1 in E' by auto. apply (G' o'). now apply the_some.
          * rewrite nth_error_app2 in E' by auto. destruct (o' - length (objs w)); simpl in E'; [injection E' as <-; exact P|destruct n; discriminate].
        + destruct (the_ok w b U) as (x & E). unfold destroy in E'. rewrite E in E'. simpl in E'. apply the_some in E'. simpl in E'. destruct (Nat.eq_dec b o') as [->|N].
          * rewrite nth_error_upd_eq in E'; [discriminate|]. apply the_some in E. apply nth_error_Some. congruence.
          * rewrite nth_error_upd_neq in E' by auto. apply (G' o'). now apply the_some.
        + destruct U as (X & Hp). destruct (the_ok w b X) as (x & E). unfold read_file in E'. rewrite E in E'. set (y := {| file := f; expanded := expanded x; ext := e; proj := proj x |}) in *. destruct load.
          * assert (Ey : the (set w b (cleared y)) b = Ok (cleared y)) by (rewrite the_set, Nat.eqb_refl by eauto; reflexivity).
            assert (Iy : Inv (set w b (cleared y))) by (apply inv_set; eauto; discriminate).
            assert (Eq : read expand (set w b y) b ok = read expand (set w b (cleared y)) b ok).
            { destruct Hp as [Hp|Hp]. apply andb_prop in Hp. destruct Hp as (_ & ->). apply read_irrel; eauto. unfold cleared. simpl. assert (Q : proj x = None) by (apply Hp; now apply the_some). unfold y. rewrite Q. reflexivity. }
            rewrite Eq in E'. destruct (read_spec expand _ b ok _ Iy Ey ltac:(left; reflexivity)) as (_ & _ & _ & _ & _ & _ & R7 & R8 & _). destruct (read expand (set w b (cleared y)) b ok) as (w', r). simpl in *.
            destruct (Nat.eq_dec o' b) as [->|N]; [rewrite E' in R8; congruence|]. rewrite R7 in E' by auto. rewrite the_set in E' by eauto. destruct (Nat.eqb_spec o' b); [congruence|]. eapply G'; eauto.
          * simpl in E'. rewrite the_set in E' by eauto. destruct (Nat.eqb_spec o' b). injection E' as <-. exact P. eapply G'; eauto.
        + destruct (the_ok w b U) as (x & E). unfold projmap in E'. rewrite E in E'. destruct (proj x) as [q|] eqn:Ep. eapply G'; eauto.
          destruct (read_spec expand w b ok x I E ltac:(left; auto)) as (_ & _ & _ & _ & _ & _ & R7 & R8 & _). destruct (read expand w b ok) as (w', r). simpl in *.
          assert (Z : the w' o' = Ok b') by (destruct r; exact E'). destruct (Nat.eq_dec o' b) as [->|N]. rewrite Z in R8. rewrite <- R8. eapply G'; eauto. rewrite R7 in Z by auto. eapply G'; eauto.
        + destruct (the_ok w b U) as (x & E). unfold deleteMap in E'. rewrite E in E'. simpl in E'. destruct (delete_map_spec w (expanded x) (ext x) I) as (w' & D & _ & _ & _ & _ & Th). rewrite D in E'. simpl in E'.
          assert (Q : forall o2 b2, the w' o2 = Ok b2 -> colon_free (ext b2)).
          { intros o2 b2 E2. rewrite Th in E2. destruct (the w o2) as [z| |] eqn:Ez; try discriminate. injection E2 as <-. destruct (in_dec Nat.eq_dec o2 (observers w)); [unfold told; destruct (has_map w' (expanded z) (ext z))|]; apply (G' o2 z Ez). }
          assert (X : exists y, the w' b = Ok y) by (rewrite Th, E; eauto). destruct X as (y & Ey). rewrite Ey in E'. simpl in E'. rewrite the_set in E' by eauto. destruct (Nat.eqb_spec o' b). injection E' as <-. apply (Q b y Ey). eapply Q; eauto. }
    destruct (exec expand w o) as (w1, r). simpl in *. specialize (IH w1 I1 G1 T). destruct (execs expand w1 ops). exact IH. }
  destruct (G ops start start_inv) as ((G1 & _) & I); auto. { split; simpl; [discriminate|]. intros o b E. destruct o; discriminate. } fold (after expand ops) in *.
  destruct (wcsmap_spec _ f e ok w' (Ok p) (lib_live _ I) (lib_inj _ I) W) as (_ & _ & _ & _ & _ & _ & R & _ & Mp). destruct (R p eq_refl) as (F & Fn & Fo).
  destruct (lfind (key f e) (library (after expand ops))) as [q|] eqn:Fq; [|auto]. rewrite (Fo q eq_refl) in Fq. destruct (G1 _ _ Fq) as (f' & e' & Ek & Ce & M). apply key_inj in Ek; auto. destruct Ek as (<- & <-). auto.
Qed.
Print Assumptions C42_right_file_partial.

(** *** The map of an object *)
Definition named (expand : string -> string) (w : world) (l : list (string * string)) : Prop :=
  length (objs w) = length l /\ forall o b, the w o = Ok b -> nth_error l o = Some (file b, ext b) /\ (proj b <> None -> expanded b = expand (file b)).
Lemma read_self expand w o ok b : the w o = Ok b ->
  length (objs (fst (read expand w o ok))) = length (objs w) /\ exists q, the (fst (read expand w o ok)) o = Ok {| file := file b; expanded := expand (file b); ext := ext b; proj := q |}.
Proof.
  intros E. unfold read, wcsmap. rewrite E. simpl. assert (L : o < length (objs w)) by (apply the_some in E; apply nth_error_Some; congruence).
  assert (D : forall (w0 : world), length (objs (add_observer w0 o)) = length (objs w0) /\ the (add_observer w0 o) o = the w0 o) by (intros w0; unfold add_observer; destruct (existsb _ _); auto).
  destruct (lfind _ _) as [p|]; [|destruct ok]; simpl.
  - rewrite (proj1 (D _)), (proj2 (D _)). unfold the, set. simpl. rewrite !upd_length, nth_error_upd_eq by (now rewrite upd_length). eauto.
  - rewrite (proj1 (D _)), (proj2 (D _)). unfold the, set. simpl. rewrite !upd_length, nth_error_upd_eq by (now rewrite upd_length). eauto.
  - unfold the, set. simpl. rewrite !upd_length, nth_error_upd_eq by auto. eauto.
Qed.
Lemma named_set expand w l o b : named expand w l -> (exists x, the w o = Ok x) -> (proj b <> None -> expanded b = expand (file b)) -> nth_error l o = Some (file b, ext b) -> named expand (set w o b) l.
Proof.
  intros (L & N) X P E. split. simpl. now rewrite upd_length. intros o' b' E'. rewrite the_set in E' by auto. destruct (Nat.eqb_spec o' o) as [->|]; auto. injection E' as <-. auto.
Qed.
Lemma named_read expand w l o ok b : Inv w -> named expand w l -> the w o = Ok b -> proj b = None -> named expand (fst (read expand w o ok)) l.
Proof.
  intros I (L & N) E P. destruct (read_self expand w o ok b E) as (L' & q & E'). split. congruence. destruct (read_spec expand w o ok b I E ltac:(auto)) as (_ & _ & _ & _ & _ & _ & O & _).
  intros o' b' Eo. destruct (Nat.eq_dec o' o) as [->|Ne]; [|rewrite O in Eo; auto]. rewrite E' in Eo. injection Eo as <-. simpl. destruct (N o b E). auto.
Qed.
Lemma named_told expand w l f e w' : Inv w -> named expand w l -> delete_map w f e = Ok w' -> named expand w' l.
Proof.
  intros I (L & N) D. destruct (delete_map_spec w f e I) as (w2 & D2 & _ & _ & _ & _ & T). rewrite D in D2. injection D2 as <-. split.
  - assert (Q : forall os (w0 w1 : world), notify_each w0 os = Ok w1 -> length (objs w1) = length (objs w0)).
    { clear. induction os as [|o os IH]; intros w0 w1 H; simpl in H; [congruence|]. unfold update in H. destruct (the w0 o) as [b| |]; try discriminate. simpl in H. rewrite (IH _ _ H). destruct (has_map _ _ _); auto. simpl. apply upd_length. }
    unfold delete_map, notify in D. destruct (lfind (key f e) (library w)) as [p|]; [|now rewrite (Q _ _ _ D)]. unfold free in D. destruct (live w p); [|discriminate]. simpl in D. now rewrite (Q _ _ _ D).
  - intros o b E. rewrite T in E. destruct (the w o) as [x| |] eqn:Ex; try discriminate. destruct (N o x Ex) as (N1 & N2). injection E as <-. destruct (in_dec Nat.eq_dec o (observers w)); [unfold told; destruct (has_map w' (expanded x) (ext x))|]; simpl; auto; split; auto; congruence.
Qed.
Lemma named_step expand w o l : Inv w -> usual w o -> named expand w l -> named expand (fst (exec expand w o)) (name_step l o).
Proof.
  intros I U (L & N). destruct o as [f e ok|f e|q|f e|b|a b|b|b f e load ok|b ok|b|b n]; simpl in U; try contradiction; simpl.
  - destruct (wcsmap w f e ok) as (w', r) eqn:W. destruct (wcsmap_spec w f e ok w' r (lib_live w I) (lib_inj w I) W) as (_ & _ & O & _). simpl. split. congruence. intros o b E. apply N. unfold the in *. now rewrite O in E.
  - destruct (delete_map_spec w f e I) as (w' & D & _). rewrite D. simpl. eapply named_told; eauto. split; auto.
  - split. simpl. rewrite !app_length. simpl. lia. intros o b E. apply the_some in E. simpl in E. destruct (Nat.lt_ge_cases o (length (objs w))) as [H|H].
    + rewrite nth_error_app1 in E |- * by lia. apply N. now apply the_some.
    + rewrite nth_error_app2 in E |- * by lia. rewrite <- L. destruct (o - length (objs w)); simpl in *; [injection E as <-; simpl; split; [auto|congruence]|destruct n; discriminate].
  - destruct (the_ok w b U) as (x & E). unfold destroy. rewrite E. simpl. split. simpl. now rewrite upd_length. intros o y Eo. apply the_some in Eo. simpl in Eo. destruct (Nat.eq_dec b o) as [->|Ne].
    + rewrite nth_error_upd_eq in Eo; [discriminate|]. apply the_some in E. apply nth_error_Some. congruence.
    + rewrite nth_error_upd_neq in Eo by auto. apply N. now apply the_some.
  - destruct U as (X & Hp). destruct (the_ok w b X) as (x & E). unfold read_file. rewrite E. set (y := {| file := f; expanded := expanded x; ext := e; proj := proj x |}) in *.
    assert (Lb : b < length l) by (rewrite <- L; apply the_some in E; apply nth_error_Some; congruence).
    assert (G : named expand (set w b (cleared y)) (upd l b (f, e))).
    { split. simpl. now rewrite !upd_length. intros o z Eo. rewrite the_set in Eo by eauto. destruct (Nat.eqb_spec o b) as [->|Ne]. injection Eo as <-. rewrite nth_error_upd_eq by auto. simpl. split; [auto|congruence]. rewrite nth_error_upd_neq by auto. auto. }
    destruct load.
    + assert (Ey : the (set w b (cleared y)) b = Ok (cleared y)) by (rewrite the_set, Nat.eqb_refl by eauto; reflexivity).
      assert (Iy : Inv (set w b (cleared y))) by (apply inv_set; eauto; discriminate).
      assert (Eq : read expand (set w b y) b ok = read expand (set w b (cleared y)) b ok).
      { destruct Hp as [Hp|Hp]. apply andb_prop in Hp. destruct Hp as (_ & ->). apply read_irrel; eauto. unfold cleared. simpl. assert (Q : proj x = None) by (apply Hp; now apply the_some). unfold y. rewrite Q. reflexivity. }
      rewrite Eq. pose proof (named_read expand _ _ b ok _ Iy G Ey eq_refl) as R. destruct (read expand (set w b (cleared y)) b ok). exact R.
    + destruct Hp as [Hp|Hp]; [discriminate|]. assert (Q : proj x = None) by (apply Hp; now apply the_some). simpl. replace y with (cleared y) by (unfold cleared, y; simpl; now rewrite Q). exact G.
  - destruct (the_ok w b U) as (x & E). unfold projmap. rewrite E. destruct (proj x) as [q|] eqn:Ep. split; auto. pose proof (named_read expand w l b ok x I (conj L N) E Ep) as R.
    destruct (read expand w b ok) as (w', r). destruct r; exact R.
  - destruct (the_ok w b U) as (x & E). unfold deleteMap. rewrite E. simpl. destruct (delete_map_spec w (expanded x) (ext x) I) as (w' & D & _ & _ & _ & _ & T). rewrite D. simpl.
    pose proof (named_told expand w l _ _ w' I (conj L N) D) as (L' & N'). assert (X : exists y, the w' b = Ok y) by (rewrite T, E; eauto). destruct X as (y & Ey). rewrite Ey. simpl.
    apply named_set; eauto. split; auto. simpl. congruence. simpl. apply (N' b y Ey).
Qed.
Lemma named_run expand : forall ops w l, Inv w -> named expand w l -> throughout expand usual w ops -> named expand (fst (execs expand w ops)) (fold_left name_step ops l).
Proof.
  induction ops as [|o ops IH]; intros w l I N T; simpl; auto. destruct T as (U & T). destruct (step_ok expand w o I U) as (I1 & _). pose proof (named_step expand w o l I U N) as N1.
  destruct (exec expand w o) as (w1, r). simpl in *. specialize (IH w1 _ I1 N1 T). destruct (execs expand w1 ops). exact IH.
Qed.

(** The map an object uses is the one of the file and extension last given to it (extension names without colons). *)
Theorem C42_object_map_partial : forall expand ops b ok p, throughout expand (fun w o => usual w o /\ plain_names w o) start (ops ++ [Projmap b ok]) ->
  snd (exec expand (after expand ops) (Projmap b ok)) = Ok (Some p) ->
  exists f e, nth_error (names ops) b = Some (f, e) /\ map_at (after expand (ops ++ [Projmap b ok])) p = Some {| from := (expand f, e); factors := [] |}.
Proof.
  intros expand ops b ok p T E. pose proof T as T0.
  assert (Tu : throughout expand usual start (ops ++ [Projmap b ok])) by (eapply throughout_weaken; [|exact T]; cbv beta; intros w o (A & _); exact A).
  pose proof (named_run expand (ops ++ [Projmap b ok]) start [] start_inv) as N. destruct N as (_ & N); auto. { split; auto. intros o x Eo. destruct o; discriminate. }
  destruct (run_ok expand _ start start_inv Tu) as (I & _). rewrite fold_left_app in N. simpl in N. fold (names ops) in N. fold (after expand (ops ++ [Projmap b ok])) in N, I.
  assert (Q : exists x, the (after expand (ops ++ [Projmap b ok])) b = Ok x /\ proj x = Some p).
  { unfold after in *. rewrite execs_app. simpl in *. set (w := fst (execs expand start ops)) in *. unfold projmap in *. destruct (the w b) as [x| |] eqn:Ex; try discriminate. destruct (proj x) as [q|] eqn:Ep.
    - simpl in *. destruct (live w q); try discriminate. injection E as <-. eauto.
    - destruct (read expand w b ok) as (w', r). destruct r; try discriminate. simpl in *. destruct (the w' b) as [y| |] eqn:Ey; try discriminate. simpl in E. destruct (proj y) as [q|] eqn:Eq; try discriminate. destruct (live w' q); try discriminate. injection E as <-. eauto. }
  destruct Q as (x & Ex & Ep). destruct (N b x Ex) as (N1 & N2). exists (file x), (ext x). split; auto. rewrite <- N2 by congruence. destruct (held _ I b x p Ex Ep) as (F & _).
  apply throughout_app in T0. destruct T0 as (T1 & _).
  apply (C42_right_file_partial expand (ops ++ [Projmap b ok]) (expanded x) (ext x) true _ p); auto. 2: unfold wcsmap; now rewrite F.
  assert (C : forall ops w l, (forall i q, nth_error l i = Some q -> colon_free (snd q)) -> throughout expand (fun w o => usual w o /\ plain_names w o) w ops -> forall i q, nth_error (fold_left name_step ops l) i = Some q -> colon_free (snd q)).
  { clear. induction ops as [|o ops IH]; intros w l H T; simpl; auto. destruct T as ((U & P) & T). apply (IH _ _) with (2 := T). destruct o; simpl in *; auto.
    - intros i q E. destruct (Nat.lt_ge_cases i (length l)). rewrite nth_error_app1 in E by auto. eauto. rewrite nth_error_app2 in E by auto. destruct (i - length l); simpl in E. injection E as <-. auto. destruct n; discriminate.
    - intros i q E. destruct (Nat.lt_ge_cases i (length l)) as [Hi|Hi]. 2: { assert (nth_error (upd l o (f, e)) i = None) by (apply nth_error_None; now rewrite upd_length). congruence. }
      destruct (Nat.eq_dec o i) as [->|]. rewrite nth_error_upd_eq in E by auto. injection E as <-. auto. rewrite nth_error_upd_neq in E by auto. eauto. }
  apply (C ops start [] ltac:(intros [|i]; discriminate) T1 b _ N1).
Qed.
Print Assumptions C42_object_map_partial.

(** ... but with a colon in it the names of two maps can be the same, and the second is never read. *)
Theorem C42_names_refuted : forall expand, let ops := [Wcsmap "a" "b::c" true; Wcsmap "a::b" "c" true] in
  results expand ops = [Ok (Some 0); Ok (Some 0)] /\ map_at (after expand ops) 0 = Some {| from := ("a", "b::c"); factors := [] |}%string.
Proof. intros expand. vm_compute. auto. Qed.
Print Assumptions C42_names_refuted.

(** A copy of an object, as clone() makes it, is not told when the map is deleted through the original: using the copy uses a freed map.
    So does using an object whose map was deleted by its address (BinnedCountsCache::deleteOriginalWeightMap does that). *)
Theorem C42_copy_refuted : forall expand f, results expand [NewObj f ""; Projmap 0 true; Copy 0; DeleteObjMap 0; Projmap 1 true] = [Ok (Some 0); Ok (Some 0); Ok (Some 1); Ok None; UB].
Proof.
  intros expand f. cbv -[String.eqb key]. rewrite !String.eqb_refl. reflexivity.
Qed.
Print Assumptions C42_copy_refuted.
Theorem C42_delete_pointer_refuted : forall expand f, results expand [NewObj f ""; Projmap 0 true; DeletePtr 0; Projmap 0 true] = [Ok (Some 0); Ok (Some 0); Ok None; UB].
Proof. intros expand f. cbv -[String.eqb key]. reflexivity. Qed.
Print Assumptions C42_delete_pointer_refuted.

(** A rebinned map is forgotten, and lost, as soon as any other map is deleted: the object reads the original again. *)
Theorem C42_rebin_refuted : let expand := fun f => f in let ops := [NewObj "a" ""; Projmap 0 true; Rebin 0 2; Projmap 0 true; DeleteMap "b" ""; Projmap 0 true] in
  results expand ops = [Ok (Some 0); Ok (Some 0); Ok None; Ok (Some 1); Ok None; Ok (Some 2)] /\
  map_at (after expand ops) 1 = Some {| from := ("a", ""); factors := [2] |}%string /\ map_at (after expand ops) 2 = Some {| from := ("a", ""); factors := [] |}%string.
Proof. vm_compute. auto. Qed.
Print Assumptions C42_rebin_refuted.

(** An object that failed to read another file keeps its map, but watches the name of the other: it misses that its map is deleted once the
    other is loaded. *)
Theorem C42_failed_read_refuted : let expand := fun f => f in let ops := [NewObj "a" ""; Projmap 0 true; ReadFile 0 "b" "" true false; Wcsmap "b" "" true; DeleteMap "a" ""; Projmap 0 true] in
  results expand ops = [Ok (Some 0); Ok (Some 0); Throw; Ok (Some 1); Ok None; UB].
Proof. vm_compute. auto. Qed.
Print Assumptions C42_failed_read_refuted.

Example C42_case : let expand := fun f => f in let ops := [NewObj "a" "x"; NewObj "b" ""; Projmap 0 true; Wcsmap "a" "x" true; ReadFile 1 "a" "x" true true; DeleteObjMap 0; Projmap 1 true; DestroyObj 0; ReadFile 1 "c" "" true true; Wcsmap "c" "" false] in
  throughout expand (fun w o => usual w o /\ plain_names w o) start ops /\
  results expand ops = [Ok (Some 0); Ok (Some 1); Ok (Some 0); Ok (Some 0); Ok None; Ok None; Ok (Some 1); Ok None; Ok None; Ok (Some 2)].
Proof.
  split; [|vm_compute; reflexivity]. assert (C0 : colon_free "") by (intros []). assert (C1 : colon_free "x") by (intros [H|[]]; discriminate).
  cbn -[colon_free]. unfold exists_obj. cbn. repeat split; eauto.
Qed.

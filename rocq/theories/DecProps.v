(** C40: band-limited spectra. C57: scaled spectra. *)
From Coq Require Import Reals Lra String List Bool PeanoNat Lia.
From Coquelicot Require Import Coquelicot.
From Verif Require Import Base AccumModel AccumProofs DecModel DecSpec DecProofs.
Import ListNotations.
Local Open Scope R_scope.
Local Open Scope list_scope.
Local Open Scope outcome_scope.

Section Wrapped.
Context {K : Type}.
Implicit Types (s : state K) (os : objects K) (o : object K).

Lemma at_some os d o : at_ os d = Some o <-> nth_error os d = Some (Some o).
Proof. unfold at_. destruct (nth_error os d) as [[y|]|]; split; congruence. Qed.
Lemma at_lt os d o : at_ os d = Some o -> (d < length os)%nat.
Proof. intros E. apply at_some in E. apply nth_error_Some. congruence. Qed.
Lemma at_upd_eq os d v : (d < length os)%nat -> at_ (upd os d v) d = v.
Proof. intros H. unfold at_. now rewrite nth_error_upd_eq. Qed.
Lemma at_upd_neq os d d' v : d' <> d -> at_ (upd os d v) d' = at_ os d'.
Proof. intros H. unfold at_. now rewrite nth_error_upd_neq by auto. Qed.
Lemma at_add os v d : at_ (os ++ [v]) d = if Nat.eqb d (length os) then v else at_ os d.
Proof.
  unfold at_. destruct (Nat.eqb_spec d (length os)) as [->|N]. rewrite nth_error_app2, Nat.sub_diag by lia. reflexivity. destruct (Nat.lt_ge_cases d (length os)). now rewrite nth_error_app1 by auto.
  rewrite nth_error_app2 by auto. destruct (d - length os)%nat eqn:E; [lia|]. simpl. destruct n; simpl; now rewrite (proj2 (nth_error_None os d)).
Qed.
Lemma nodup_l {T} (l m : list T) : NoDup (l ++ m) -> NoDup l.
Proof. induction l; simpl; intros H; constructor; inversion H; subst; auto. rewrite in_app_iff in *. tauto. Qed.
Lemma upd_id {T} (l : list T) : forall d x, nth_error l d = Some x -> upd l d x = l.
Proof. induction l; intros [|d] x E; simpl in *; try discriminate. congruence. f_equal. auto. Qed.

Lemma stands_frame s s' x o : stands s x o -> the_func s' (dspec x) = the_func s (dspec x) -> stands s' x o.
Proof. intros [A B C D E] F. constructor; auto. congruence. Qed.

Lemma rel_put s os d x o' x' s' : Rel s os -> the_dec s d = Ok x -> length (decs s') = length (decs s) -> nth_error (decs s') d = Some (Some x') ->
  (forall d2, d2 <> d -> nth_error (decs s') d2 = nth_error (decs s) d2) -> stands s' x' o' ->
  (forall d2 x2, d2 <> d -> the_dec s d2 = Ok x2 -> the_func s' (dspec x2) = the_func s (dspec x2) /\ dspec x2 <> dspec x') -> Rel s' (upd os d (Some o')).
Proof.
  intros R E L Ed Eo St Fr. assert (Ld : (d < length os)%nat) by (rewrite <- (rel_len s os R); apply the_dec_some in E; apply nth_error_Some; congruence). constructor.
  - rewrite upd_length, L. apply (rel_len s os R).
  - intros d2. destruct (Nat.eq_dec d2 d) as [->|N].
    + rewrite Ed, at_upd_eq by auto. eauto.
    + rewrite (Eo d2 N), at_upd_neq by auto. pose proof (rel_st s os R d2) as H. destruct (nth_error (decs s) d2) as [[x2|]|] eqn:E2; auto. destruct H as (o2 & A & B). exists o2. split; auto. apply stands_frame with (s := s); auto. apply Fr with (d2 := d2); auto. now apply the_dec_some.
  - intros d1 d2 x1 x2 E1 E2 Eq. destruct (Nat.eq_dec d1 d) as [->|N1], (Nat.eq_dec d2 d) as [->|N2]; auto.
    + rewrite Ed in E1. injection E1 as <-. rewrite Eo in E2 by auto. destruct (Fr d2 x2 N2) as (_ & H). now apply the_dec_some. congruence.
    + rewrite Ed in E2. injection E2 as <-. rewrite Eo in E1 by auto. destruct (Fr d1 x1 N1) as (_ & H). now apply the_dec_some. congruence.
    + rewrite Eo in E1, E2 by auto. apply (rel_own s os R d1 d2 x1 x2); auto.
Qed.
Lemma rel_new s os o' x' h : Rel s os -> stands {| heap := h; decs := decs s ++ [Some x'] |} x' o' ->
  (forall d2 x2, the_dec s d2 = Ok x2 -> the_func {| heap := h; decs := decs s ++ [Some x'] |} (dspec x2) = the_func s (dspec x2) /\ dspec x2 <> dspec x') ->
  Rel {| heap := h; decs := decs s ++ [Some x'] |} (os ++ [Some o']).
Proof.
  intros R St Fr. constructor; simpl.
  - rewrite !app_length, (rel_len s os R). reflexivity.
  - intros d2. rewrite at_add, <- (rel_len s os R). destruct (Nat.eqb_spec d2 (length (decs s))) as [->|N].
    + rewrite nth_error_app2, Nat.sub_diag by lia. simpl. eauto.
    + pose proof (rel_st s os R d2) as H. destruct (Nat.lt_ge_cases d2 (length (decs s))) as [Hl|Hl].
      * rewrite nth_error_app1 by auto. destruct (nth_error (decs s) d2) as [[x2|]|] eqn:E2; auto. destruct H as (o2 & A & B). exists o2. split; auto. apply stands_frame with (s := s); auto. apply (Fr d2). now apply the_dec_some.
      * rewrite nth_error_app2 by auto. rewrite (proj2 (nth_error_None (decs s) d2)) in H by auto. destruct (d2 - length (decs s))%nat eqn:E; [lia|]. simpl. destruct n; simpl; auto.
  - assert (G : forall d x, nth_error (decs s ++ [Some x']) d = Some (Some x) -> d = length (decs s) /\ x = x' \/ the_dec s d = Ok x).
    { intros d x E. destruct (Nat.lt_ge_cases d (length (decs s))). right. apply the_dec_some. now rewrite nth_error_app1 in E. left. rewrite nth_error_app2 in E by auto. destruct (d - length (decs s))%nat eqn:Ed; simpl in E. split. lia. congruence. destruct n; discriminate. }
    intros d1 d2 x1 x2 E1 E2 Eq. destruct (G _ _ E1) as [(-> & ->)|H1], (G _ _ E2) as [(-> & ->)|H2]; auto. destruct (Fr _ _ H2); congruence. destruct (Fr _ _ H1); congruence.
    apply (rel_own s os R d1 d2 x1 x2); auto; now apply the_dec_some.
Qed.
Lemma rel_same s os d o : Rel s os -> at_ os d = Some o -> Rel s (upd os d (Some o)).
Proof. intros R E. apply at_some in E. now rewrite upd_id. Qed.

Lemma spec_lt s os d x : Rel s os -> the_dec s d = Ok x -> (dspec x < length (heap s))%nat.
Proof. intros R E. destruct (rel_dec s os d x R E) as (o & _ & St). pose proof (st_func s x o St) as F. apply the_func_some in F. apply nth_error_Some. congruence. Qed.
Lemma heap_old s f ds a : (a < length (heap s))%nat -> the_func {| heap := heap s ++ [Some f]; decs := ds |} a = the_func s a.
Proof. intros H. unfold the_func. simpl. now rewrite nth_error_app1. Qed.
Lemma heap_new s f ds : the_func {| heap := heap s ++ [Some f]; decs := ds |} (length (heap s)) = Ok f.
Proof. unfold the_func. simpl. rewrite nth_error_app2, Nat.sub_diag by lia. reflexivity. Qed.

(** *** Changing a parameter *)
Lemma change_in_position n g : forall l, change_in n g l = match position pname n l with None => None | Some i => match nth_error l i with Some p => Some (upd l i (fst (g p)), snd (g p)) | None => None end end.
Proof.
  induction l as [|p l IH]; simpl; auto. destruct (String.eqb (pname p) n). simpl. destruct (g p); reflexivity. rewrite IH. destruct (position pname n l) as [i|]; auto. simpl. destruct (nth_error l i); auto.
Qed.
Lemma upd_names (l : list par) : forall i p p', nth_error l i = Some p -> pname p' = pname p -> map pname (upd l i p') = map pname l.
Proof. induction l; intros [|i] p p' E N; simpl in *; try discriminate. injection E as ->. congruence. f_equal. eauto. Qed.

Lemma put_inner s os d x o i p p' : Rel s os -> the_dec s d = Ok x -> stands s x o -> nth_error (inner o) i = Some p -> pname p' = pname p ->
  Rel (set_func s (dspec x) {| fkind := kind o; fpars := upd (inner o) i p' |}) (upd os d (Some {| kind := kind o; inner := upd (inner o) i p'; added := added o |})).
Proof.
  intros R E St Ep Np. pose proof (spec_lt s os d x R E) as Lx. assert (En : map pname (upd (inner o) i p') = map pname (inner o)) by (eapply upd_names; eauto).
  apply rel_put with (s := s) (x := x) (x' := x); auto. now apply the_dec_some.
  - destruct St as [F (l & L1 & L2) N1 N2 C]. constructor; simpl; auto.
    + apply the_func_some. simpl. now rewrite nth_error_upd_eq.
    + exists l. split; auto. congruence.
    + unfold the_params in *. simpl. rewrite map_app in *. now rewrite En.
  - intros d2 x2 N E2. assert (Q : dspec x2 <> dspec x). { intros Q. apply N. apply (rel_own s os R d2 d x2 x); auto; now apply the_dec_some. } split; auto. unfold the_func. simpl. now rewrite nth_error_upd_neq by auto.
Qed.
Lemma put_added s os d x o i p p' r' : Rel s os -> the_dec s d = Ok x -> stands s x o -> nth_error (rest_pars (added o)) i = Some p -> pname p' = pname p ->
  rest_pars r' = upd (rest_pars (added o)) i p' -> cls_of r' = cls_of (added o) -> rest_names r' = rest_names (added o) ->
  Rel (set_dec s d {| dcls := dcls x; dspec := dspec x; slots := upd (slots x) (length (inner o) + i) {| own := p'; ref := None |} |}) (upd os d (Some {| kind := kind o; inner := inner o; added := r' |})).
Proof.
  intros R E St Ep Np Er Ec Em. assert (Ld : (d < length (decs s))%nat) by (apply the_dec_some in E; apply nth_error_Some; congruence).
  assert (En : map pname (upd (rest_pars (added o)) i p') = map pname (rest_pars (added o))) by (eapply upd_names; eauto).
  eapply rel_put with (s := s) (x := x); eauto; simpl.
  - apply upd_length. - now apply nth_error_upd_eq. - intros d2 Nd2. apply nth_error_upd_neq. auto.
  - destruct St as [F (l & L1 & L2) N1 N2 C]. assert (Ll : length (refer (dspec x) 0 l) = length (inner o)) by (rewrite refer_length, <- (map_length (fun sl => pname (own sl)) l), L1, map_length; auto).
    constructor; simpl; auto.
    + exists l. split; auto. rewrite L2, <- Ll, upd_app_r, Er. f_equal. clear. generalize (rest_pars (added o)) as ps. revert i. intros i ps. revert i. induction ps as [|q ps IH]; intros [|i]; simpl; auto. f_equal. apply IH.
    + unfold the_params in *. simpl. rewrite map_app in *. now rewrite Er, En.
    + now rewrite Er, En, N2.
    + congruence.
  - intros d2 x2 N E2. split; auto. intros Q. apply N. apply (rel_own s os R d2 d x2 x); auto; now apply the_dec_some.
Qed.

Lemma change_ok s os d o n g : Rel s os -> at_ os d = Some o -> (forall p, pname (fst (g p)) = pname p) ->
  snd (change s d n g) = snd (change_par n g o) /\ Rel (fst (change s d n g)) (upd os d (Some (fst (change_par n g o)))).
Proof.
  intros R E G. destruct (rel_at s os d o R E) as (x & Ex & St). unfold change, change_par. rewrite Ex, (slot_position s x o n St), change_in_position. unfold the_params. rewrite position_app.
  destruct (position pname n (inner o)) as [i|] eqn:Pi.
  - destruct (position_some _ _ _ _ Pi) as (p & Ep & _ & _). rewrite Ep. destruct (inner_slot s x o i p St Ep) as (q & S1 & S2 & _). rewrite S1, S2. specialize (G p). destruct (g p) as (p', r). simpl in *. split; auto.
    unfold slot_set. simpl. rewrite (st_func s x o St). simpl. eapply put_inner; eauto.
  - pose proof (st_names s x o St) as Na. rewrite (position_map pname n (rest_pars (added o))), Na.
    assert (A : forall i p r', nth_error (rest_pars (added o)) i = Some p -> rest_pars r' = upd (rest_pars (added o)) i (fst (g p)) -> cls_of r' = cls_of (added o) -> rest_names r' = rest_names (added o) ->
       let c := match nth_error (slots x) (length (inner o) + i) with Some sl => match slot_par s sl with Ok p => let (p', r) := g p in (slot_set s d x (length (inner o) + i) sl p', r) | Throw => (s, Throw) | UB => (s, UB) end | None => (s, UB) end in
       snd c = snd (g p) /\ Rel (fst c) (upd os d (Some {| kind := kind o; inner := inner o; added := r' |}))).
    { intros i p r' Ep Er Ec Em. destruct (added_slot s x o i p St Ep) as (S1 & S2). rewrite S1, S2. specialize (G p). destruct (g p) as (p', r) eqn:Eg. simpl in *. split; auto. unfold slot_set. simpl. eapply put_added; eauto. }
    destruct (added o) as [p q|c p] eqn:Ad; cbn [rest_names position change_added].
    + rewrite (String.eqb_sym n "Emin"), (String.eqb_sym n "Emax"). destruct (String.eqb "Emin" n); [|destruct (String.eqb "Emax" n)].
      * destruct (A 0%nat p (IsBand (fst (g p)) q)) as (A1 & A2); auto. destruct (g p) as (p', r). simpl in *. auto.
      * destruct (A 1%nat q (IsBand p (fst (g q)))) as (A1 & A2); auto. destruct (g q) as (q', r). simpl in *. auto.
      * split; auto. simpl. now apply rel_same.
    + rewrite (String.eqb_sym n). destruct (String.eqb "ScaleFactor" n).
      * destruct (A 0%nat p (IsFactor c (fst (g p)))) as (A1 & A2); auto. destruct (g p) as (p', r). simpl in *. auto.
      * split; auto. simpl. now apply rel_same.
Qed.

Lemma set_like_name p q : pname (fst (set_like p q)) = pname p.
Proof. unfold set_like, set_value, set_bounds. destruct (_ && _); auto. simpl. destruct (_ && _); auto. Qed.
Lemma give_name v p : pname (fst (give v p)) = pname p.
Proof. unfold give. destruct (_ && _); auto. Qed.
Lemma give_set v p : (match set_value p v with Ok p' => (p', Ok tt) | Throw => (p, Throw) | UB => (p, UB) end) = give v p.
Proof. unfold set_value, give. destruct (_ && _); auto. Qed.
Lemma change_ext s d n g g' : (forall p, g p = g' p) -> change s d n g = change s d n g'.
Proof. intros H. unfold change. destruct (the_dec s d) as [x| |]; auto. destruct (position _ _ _) as [i|]; auto. destruct (nth_error _ _) as [sl|]; auto. destruct (slot_par _ _); auto. now rewrite H. Qed.

(** *** One call *)
Lemma step_ok s os c : Rel s os -> usual os c -> Rel (fst (exec s c)) (fst (expected os c)) /\ snd (exec s c) = snd (expected os c).
Proof.
  intros R U. destruct c as [k ps e|d|d d'|d|d q|d n v|d n v|d c]; simpl in U.
  - (* constructor *) destruct U as (N & Ne). simpl. unfold new_dec. set (f := {| fkind := k; fpars := ps |}).
    pose proof (set_refs_ok (length (heap s)) f) as SR. assert (N1 : NoDup (map pname ps)) by (apply nodup_l in N; auto).
    specialize (SR N1 (map (fun p => {| own := p; ref := None |}) ps) [] []). simpl in SR. rewrite !app_nil_r, map_length, map_map in SR. rewrite SR by reflexivity. cbn [obind].
    set (x := {| dcls := extra_cls e; dspec := length (heap s); slots := _ |}). replace (check_complement _ x) with (@Ok unit tt) by (unfold check_complement; simpl; destruct e as [a b|v [|]]; simpl; tauto). simpl. split; [|now rewrite (rel_len s os R)].
    apply rel_new; auto.
    + constructor; simpl. * apply heap_new. * exists (map (fun p => {| own := p; ref := None |}) ps). split. now rewrite map_map. unfold x. simpl. destruct e; reflexivity.
      * unfold the_params. simpl. now rewrite map_app. * destruct e; reflexivity. * destruct e; reflexivity.
    + intros d2 x2 E2. pose proof (spec_lt s os d2 x2 R E2). split. now apply heap_old. simpl. lia.
  - (* copy *) destruct (at_ os d) as [o|] eqn:E; [|congruence]. destruct (rel_at s os d o R E) as (x & Ex & St). simpl. unfold copy. rewrite Ex. simpl. rewrite (st_func s x o St). simpl.
    pose proof St as [F (l & L1 & L2) N1 N2 C]. assert (Ll : length l = length (inner o)) by (rewrite <- (map_length (fun sl => pname (own sl)) l), L1, map_length; auto).
    pose proof (set_refs_ok (length (heap s)) {| fkind := kind o; fpars := inner o |}) as SR. assert (Ni : NoDup (map pname (inner o))) by (unfold the_params in N1; rewrite map_app in N1; apply nodup_l in N1; auto).
    specialize (SR Ni (refer (dspec x) 0 l) [] (map (fun p => {| own := p; ref := None |}) (rest_pars (added o)))). simpl in SR. rewrite refer_length, Ll, refer_names, refer_refer in SR. rewrite L2, SR by auto. simpl. rewrite E. split; [|now rewrite (rel_len s os R)].
    apply rel_new; auto.
    + constructor; simpl; auto. apply heap_new. exists l. auto.
    + intros d2 x2 E2. pose proof (spec_lt s os d2 x2 R E2). split. now apply heap_old. simpl. lia.
  - (* assignment *) destruct U as (o & o' & E & E' & En & Sa). destruct (rel_at s os d o R E) as (x & Ex & St). destruct (rel_at s os d' o' R E') as (y & Ey & St'). simpl. unfold assign. rewrite Ex. simpl. rewrite Ey. simpl. rewrite (st_func s y o' St'). simpl.
    rewrite E'. destruct (Nat.eqb_spec d d') as [->|Nd].
    + simpl. split; auto. now apply rel_same.
    + pose proof St as [F (l & L1 & L2) N1 N2 C]. assert (Ll : length l = length (inner o')) by (rewrite <- (map_length (fun sl => pname (own sl)) l), L1, En, map_length; auto).
      pose proof (set_refs_ok (length (heap s)) {| fkind := kind o'; fpars := inner o' |}) as SR. pose proof (st_nodup s y o' St') as N1'. assert (Ni : NoDup (map pname (inner o'))) by (unfold the_params in N1'; rewrite map_app in N1'; apply nodup_l in N1'; auto).
      specialize (SR Ni (refer (dspec x) 0 l) [] (map (fun p => {| own := p; ref := None |}) (rest_pars (added o)))). simpl in SR. rewrite refer_length, Ll, refer_names, refer_refer in SR. rewrite L2, SR by congruence. simpl. split; auto.
      assert (Ld : (d < length (decs s))%nat) by (apply the_dec_some in Ex; apply nth_error_Some; congruence).
      eapply rel_put with (s := s) (x := x); eauto; simpl.
      * apply upd_length. * now apply nth_error_upd_eq. * intros d2 Nd2. apply nth_error_upd_neq. auto.
      * constructor; simpl. apply heap_new. exists l. split. congruence. f_equal. f_equal. destruct (added o), (added o'); simpl in *; try contradiction. destruct Sa; congruence. congruence. exact N1'. apply St'. apply St'.
      * intros d2 x2 N E2. pose proof (spec_lt s os d2 x2 R E2). split. now apply heap_old. simpl. lia.
  - (* destructor *) destruct (at_ os d) as [o|] eqn:E; [|congruence]. destruct (rel_at s os d o R E) as (x & Ex & St). simpl. unfold destroy. rewrite Ex. simpl. rewrite (st_func s x o St). simpl. split; auto.
    assert (Ld : (d < length (decs s))%nat) by (apply the_dec_some in Ex; apply nth_error_Some; congruence). constructor; simpl.
    + rewrite !upd_length. apply R.
    + intros d2. destruct (Nat.eq_dec d2 d) as [->|N]. rewrite nth_error_upd_eq by auto. apply at_upd_eq. rewrite <- (rel_len s os R). auto.
      rewrite nth_error_upd_neq, at_upd_neq by auto. pose proof (rel_st s os R d2) as H. destruct (nth_error (decs s) d2) as [[x2|]|] eqn:E2; auto. destruct H as (o2 & A & B). exists o2. split; auto. apply stands_frame with (s := s); auto.
      unfold the_func. simpl. rewrite nth_error_upd_neq; auto. intros Q. apply N. apply (rel_own s os R d2 d x2 x); auto. now apply the_dec_some.
    + intros d1 d2 x1 x2 E1 E2 Q. destruct (Nat.eq_dec d1 d) as [->|M1]. rewrite nth_error_upd_eq in E1 by auto. discriminate. destruct (Nat.eq_dec d2 d) as [->|M2]. rewrite nth_error_upd_eq in E2 by auto. discriminate.
      rewrite nth_error_upd_neq in E1, E2 by auto. apply (rel_own s os R d1 d2 x1 x2); auto.
  - (* setParam with a parameter *) destruct (at_ os d) as [o|] eqn:E; [|congruence]. simpl. unfold set_param, apply_to. rewrite E. destruct (change_ok s os d o (pname q) (fun p => set_like p q) R E (fun p => set_like_name p q)) as (A & B).
    destruct (change s d (pname q) (fun p => set_like p q)) as (s', r), (change_par (pname q) (fun p => set_like p q) o) as (o', r'). simpl in *. subst. split; auto.
  - (* setParam with a number *) destruct (at_ os d) as [o|] eqn:E; [|congruence]. simpl. unfold set_number, apply_to. rewrite E. rewrite (change_ext s d n _ (give v) (give_set v)). destruct (change_ok s os d o n (give v) R E (give_name v)) as (A & B).
    destruct (change s d n (give v)) as (s', r), (change_par n (give v) o) as (o', r'). simpl in *. subst. split; auto.
  - (* on the wrapped spectrum *) destruct (at_ os d) as [o|] eqn:E; [|congruence]. destruct (rel_at s os d o R E) as (x & Ex & St). simpl. unfold set_inner, apply_to. rewrite E, Ex. simpl. rewrite (st_func s x o St). simpl. rewrite change_in_position.
    destruct (position pname n (inner o)) as [i|] eqn:Pi; [|simpl; split; auto; now apply rel_same]. destruct (position_some _ _ _ _ Pi) as (p & Ep & _ & _). rewrite Ep. unfold set_value, give. destruct (above (plo p) v && below (phi p) v); simpl.
    + split; auto. eapply put_inner; eauto.
    + split; auto. rewrite (upd_id (inner o) i p Ep). destruct o. simpl in *. now apply rel_same.
  - (* the complement form *) destruct U as (o & E & U). destruct (rel_at s os d o R E) as (x & Ex & St). simpl. unfold set_flag, apply_to. rewrite E, Ex. rewrite (st_cls s x o St). destruct (added o) as [p q|c0 p] eqn:A; simpl. split; auto. now apply rel_same.
    assert (Ld : (d < length (decs s))%nat) by (apply the_dec_some in Ex; apply nth_error_Some; congruence).
    assert (R' : Rel (set_dec s d {| dcls := Factor c; dspec := dspec x; slots := slots x |}) (upd os d (Some {| kind := kind o; inner := inner o; added := IsFactor c p |}))).
    { eapply rel_put with (s := s) (x := x); eauto; simpl.
      - apply upd_length. - now apply nth_error_upd_eq. - intros d2 Nd2. apply nth_error_upd_neq. auto.
      - destruct St as [F (l & L1 & L2) N1 N2 C]. constructor; simpl; auto. exists l. rewrite A in L2. auto. unfold the_params in *. rewrite A in N1. exact N1. rewrite A in N2. exact N2.
      - intros d2 x2 N E2. split; auto. intros Q. apply N. apply (rel_own s os R d2 d x2 x); auto; now apply the_dec_some. }
    split; auto. unfold check_complement. simpl. destruct c; [|reflexivity]. destruct U as [U|(U1 & U2 & U3)]; [discriminate|].
    change (the_func (set_dec s d _) (dspec x)) with (the_func s (dspec x)). rewrite (st_func s x o St). cbn [obind fpars]. destruct (added_slot s x o 0 p St) as (S0 & P0); [now rewrite A|]. rewrite Nat.add_0_r in S0. unfold vec_get. rewrite S0. cbn [obind]. unfold slot_par. cbn [ref own obind].
    rewrite U1, U2, U3. unfold Reqb. destruct (Req_EM_T 0 0), (Req_EM_T 1 1); try lra. reflexivity.
Qed.
End Wrapped.

Section Histories.
Context {K : Type} (sval : K -> list par -> R -> R) (sder : K -> list par -> string -> R -> outcome R).
Lemma run_ok : forall (cs : list (op K)) s os, Rel s os -> usuals os cs -> Rel (fst (execs s cs)) (fst (expecteds os cs)) /\ snd (execs s cs) = snd (expecteds os cs).
Proof.
  induction cs as [|c cs IH]; intros s os R U; simpl; auto. destruct U as (U1 & U2). destruct (step_ok s os c R U1) as (R1 & E1). destruct (exec s c) as (s1, r). destruct (expected os c) as (os1, r'). simpl in *. subst.
  destruct (IH s1 os1 R1 U2) as (R2 & E2). destruct (execs s1 cs), (expecteds os1 cs). simpl in *. subst. auto.
Qed.
Lemma rel_start : Rel (@start K) [].
Proof. constructor; simpl; auto. intros [|d]; reflexivity. intros [|d]; discriminate. Qed.
End Histories.

(** Whatever calls are made on any number of wrapped spectra, apart from those excluded by [usuals] and shown to be wrong below: each object
    has the parameters that were set on it, through the object or its spectrum, and on no other; its values and derivatives are those of the
    spectrum with these parameters inside the band, and zero outside, or the spectrum times the factor. *)
Theorem C40_history_partial : forall K sval sder (cs : list (op K)), usuals [] cs -> let (s, rs) := execs start cs in let (os, rs') := expecteds [] cs in
  rs = rs' /\ forall d o, at_ os d = Some o ->
    params s d = Ok (the_params o) /\ (forall e, value sval s d e = Ok (the_value sval o e)) /\ forall n e, deriv sval sder s d n e = the_deriv sval sder o n e.
Proof.
  intros K sval sder cs U. destruct (run_ok cs start [] rel_start U) as (R & E). destruct (execs start cs) as (s, rs). destruct (expecteds [] cs) as (os, rs'). simpl in *. split; auto.
  intros d o Ed. split; [|split; intros]. eapply params_ok; eauto. eapply value_ok; eauto. eapply deriv_ok; eauto.
Qed.
Print Assumptions C40_history_partial.

(** Two bands of one spectrum that share an edge: at no energy do both count, and together they are the band from the first to the last edge. *)
Theorem C40_partition : forall K sval (cs : list (op K)) k ps d1 d2 d3 a b b' c a' c' e, usuals [] cs -> let os := fst (expecteds [] cs) in let s := fst (execs start cs) in
  at_ os d1 = Some {| kind := k; inner := ps; added := IsBand a b |} -> at_ os d2 = Some {| kind := k; inner := ps; added := IsBand b' c |} ->
  at_ os d3 = Some {| kind := k; inner := ps; added := IsBand a' c' |} -> true_value b = true_value b' -> true_value a = true_value a' -> true_value c = true_value c' ->
  true_value a <= true_value b <= true_value c ->
  exists v1 v2 v3, value sval s d1 e = Ok v1 /\ value sval s d2 e = Ok v2 /\ value sval s d3 e = Ok v3 /\ v3 = v1 + v2 /\ (v1 = 0 \/ v2 = 0).
Proof.
  intros K sval cs k ps d1 d2 d3 a b b' c a' c' e U os s E1 E2 E3 Eb Ea Ec H. destruct (run_ok cs start [] rel_start U) as (R & _). fold os s in R.
  rewrite (value_ok sval s os d1 _ e R E1), (value_ok sval s os d2 _ e R E2), (value_ok sval s os d3 _ e R E3). do 3 eexists. split; [reflexivity|]. split; [reflexivity|]. split; [reflexivity|].
  unfold the_value. simpl. rewrite <- Eb, <- Ea, <- Ec. destruct (Rleb_spec (true_value a) e), (Rltb_spec e (true_value b)), (Rleb_spec (true_value b) e), (Rltb_spec e (true_value c)); simpl; split; try lra; auto; exfalso; lra.
Qed.
Print Assumptions C40_partition.

(** *** Derivatives *)
Definition is_the_derivative {K} (sval : K -> list par -> R -> R) (sder : K -> list par -> string -> R -> outcome R) : Prop :=
  forall k ps n e g i p, position pname n ps = Some i -> nth_error ps i = Some p -> sder k ps n e = Ok g -> is_derive (fun v => sval k (upd ps i (with_value p v)) e) (pval p) g.
Lemma with_value_same p : with_value p (pval p) = p. Proof. destruct p; reflexivity. Qed.
Lemma change_par_give K (o : object K) n v p : In p (the_params o) -> pname p = n -> NoDup (map pname (the_params o)) -> map pname (rest_pars (added o)) = rest_names (added o) -> above (plo p) v && below (phi p) v = true ->
  (exists i, position pname n (inner o) = Some i /\ nth_error (inner o) i = Some p /\ change_par n (give v) o = ({| kind := kind o; inner := upd (inner o) i (with_value p v); added := added o |}, Ok tt)) \/
  (is_inner o n = false /\ exists a, change_added n (give v) (added o) = Some (a, Ok tt) /\ change_par n (give v) o = ({| kind := kind o; inner := inner o; added := a |}, Ok tt)).
Proof.
  intros I En N Na B. unfold change_par. rewrite change_in_position, is_inner_position. unfold the_params in I, N. rewrite map_app in N. apply in_app_or in I. destruct (position pname n (inner o)) as [i|] eqn:Pi.
  - left. destruct (position_some _ _ _ _ Pi) as (q & Eq & Nq & _). assert (q = p).
    { destruct I as [I|I].
      - destruct (In_nth_error _ _ I) as (j & Ej). pose proof (position_nodup pname (inner o) j p (nodup_l _ _ N) Ej) as Pj. rewrite En, Pi in Pj. injection Pj as ->. congruence.
      - exfalso. assert (D : forall (l m : list string) x, NoDup (l ++ m) -> In x l -> In x m -> False). { clear. induction l; simpl; intros m x N H1 H2; auto. inversion N; subst. destruct H1 as [->|H1]. apply H3. apply in_or_app. auto. eauto. }
        apply (D _ _ n N). rewrite <- Nq. apply in_map. eapply nth_error_In; eauto. rewrite <- En. now apply in_map. }
    subst q. exists i. rewrite Eq. split; auto. split; auto. unfold give. rewrite B. reflexivity.
  - right. destruct I as [I|I]. exfalso. apply position_none in Pi. apply Pi. rewrite <- En. now apply in_map. split; auto.
    destruct (added o) as [q1 q2|c q]; simpl in *.
    + injection Na as Na1 Na2. destruct I as [->|[->|[]]].
      * rewrite <- En, Na1. simpl. unfold give. rewrite B. eauto.
      * rewrite <- En, Na2. simpl. unfold give. rewrite B. eauto.
    + injection Na as Na1. destruct I as [->|[]]. rewrite <- En, Na1. simpl. unfold give. rewrite B. eauto.
Qed.
(** [g] is the derivative of the value of object [d] by the value of its parameter [n], as it is seen by setting that parameter. *)
Definition derivative_seen {K} (sval : K -> list par -> R -> R) (s : state K) (d : nat) (n : string) (e : R) (p : par) (g : R) : Prop :=
  exists F, is_derive F (pval p) g /\ forall v, above (plo p) v && below (phi p) v = true -> value sval (fst (exec s (SetNumber d n v))) d e = Ok (F v).
Lemma derivative_ok K sval sder (cs : list (op K)) d o p e g : @is_the_derivative K sval sder -> usuals [] cs -> let os := fst (expecteds [] cs) in let s := fst (execs start cs) in
  at_ os d = Some o -> In p (the_params o) -> deriv sval sder s d (pname p) e = Ok g -> derivative_seen sval s d (pname p) e p g.
Proof.
  intros HD U os s E I Hd. destruct (run_ok cs start [] rel_start U) as (R & _). fold os s in R. rewrite (deriv_ok sval sder s os d o (pname p) e R E) in Hd.
  destruct (rel_at s os d o R E) as (x & Ex & St).
  assert (V : forall v o', above (plo p) v && below (phi p) v = true -> change_par (pname p) (give v) o = (o', Ok tt) -> value sval (fst (exec s (SetNumber d (pname p) v))) d e = Ok (the_value sval o' e)).
  { intros v o' B Ec. destruct (step_ok s os (SetNumber d (pname p) v) R) as (R' & _); [simpl; congruence|]. eapply value_ok; eauto. simpl. unfold apply_to. rewrite E, Ec. simpl. apply at_upd_eq. eapply at_lt; eauto. }
  unfold the_deriv in Hd. rewrite is_inner_position in Hd. destruct (position pname (pname p) (inner o)) as [i|] eqn:Pi.
  - assert (Ei : nth_error (inner o) i = Some p).
    { destruct (position_some _ _ _ _ Pi) as (q & Eq & Nq & _). unfold the_params in I. apply in_app_or in I. pose proof (st_nodup s x o St) as N. unfold the_params in N. rewrite map_app in N. destruct I as [I|I].
      - destruct (In_nth_error _ _ I) as (j & Ej). pose proof (position_nodup pname (inner o) j p (nodup_l _ _ N) Ej) as Pj. rewrite Pi in Pj. congruence.
      - exfalso. assert (D : forall (l m : list string) x, NoDup (l ++ m) -> In x l -> In x m -> False). { clear. induction l; simpl; intros m x N H1 H2; auto. inversion N; subst. destruct H1 as [->|H1]. apply H3. apply in_or_app. auto. eauto. }
        apply (D _ _ (pname p) N). rewrite <- Nq. apply in_map. eapply nth_error_In; eauto. now apply in_map. }
    exists (fun v => the_value sval {| kind := kind o; inner := upd (inner o) i (with_value p v); added := added o |} e). split.
    + unfold the_value. simpl. destruct (added o) as [a b|c q].
      * destruct (Rleb (true_value a) e && Rltb e (true_value b)). apply (HD _ _ _ _ _ _ _ Pi Ei Hd). injection Hd as <-. apply (is_derive_ext (fun _ => 0)); auto. apply is_derive_Reals, derivable_pt_lim_const.
      * destruct (sder (kind o) (inner o) (pname p) e) as [g0| |] eqn:Sd; try discriminate. injection Hd as <-. pose proof (HD _ _ _ _ _ _ _ Pi Ei Sd) as D0.
        apply (is_derive_scal (fun v => sval (kind o) (upd (inner o) i (with_value p v)) e) (pval p) _ g0 D0).
    + intros v B. apply V; auto. destruct (change_par_give K o (pname p) v p I eq_refl (st_nodup s x o St) (st_names s x o St) B) as [(j & Pj & _ & Ec)|(Nf & _)].
      * rewrite Pi in Pj. injection Pj as <-. exact Ec.
      * rewrite is_inner_position, Pi in Nf. discriminate.
  - destruct (added o) as [a b|c q] eqn:A; [discriminate|]. destruct (String.eqb_spec (pname p) "ScaleFactor") as [Ep|]; [|discriminate]. injection Hd as <-.
    assert (Eq : p = q). { unfold the_params in I. apply in_app_or in I. destruct I as [I|I]. exfalso. apply position_none in Pi. apply Pi. now apply in_map. rewrite A in I. destruct I as [->|[]]. reflexivity. } subst q.
    exists (fun v => (if c then 1 - v * pscale p else v * pscale p) * sval (kind o) (inner o) e). split.
    + destruct c; auto_derive; auto; ring.
    + intros v B. rewrite (V v {| kind := kind o; inner := inner o; added := IsFactor c (with_value p v) |} B); [reflexivity|].
      destruct (change_par_give K o (pname p) v p I eq_refl (st_nodup s x o St) (st_names s x o St) B) as [(j & Pj & _)|(_ & a & Ca & Ec)]; [congruence|]. rewrite Ec. rewrite A in Ca. cbn [change_added] in Ca. rewrite Ep in Ca. rewrite String.eqb_refl in Ca. unfold give in Ca. rewrite B in Ca. congruence.
Qed.

(** If the derivatives of the spectrum are right, so are those of the band by the parameters of the spectrum ... *)
Theorem C40_derivative : forall K sval sder (cs : list (op K)) d o p e g, is_the_derivative sval sder -> usuals [] cs -> let s := fst (execs start cs) in
  at_ (fst (expecteds [] cs)) d = Some o -> (exists a b, added o = IsBand a b) -> In p (the_params o) -> deriv sval sder s d (pname p) e = Ok g -> derivative_seen sval s d (pname p) e p g.
Proof. intros K sval sder cs d o p e g H U s E _ I D. eapply derivative_ok; eauto. Qed.
Print Assumptions C40_derivative.
(** ... and there are none by the limits. *)
Theorem C40_fixed : forall K sval sder (cs : list (op K)) d o n e, usuals [] cs -> at_ (fst (expecteds [] cs)) d = Some o -> (exists a b, added o = IsBand a b) ->
  ~ In n (map pname (inner o)) -> deriv sval sder (fst (execs start cs)) d n e = Throw.
Proof.
  intros K sval sder cs d o n e U E (a & b & A) N. destruct (run_ok cs start [] rel_start U) as (R & _). rewrite (deriv_ok sval sder _ _ d o n e R E). unfold the_deriv. rewrite is_inner_position, (proj2 (position_none pname n (inner o)) N), A. reflexivity.
Qed.
Print Assumptions C40_fixed.

(** setParam makes the parameter of the name the one given, if the value given is inside its old and its new bounds, and changes no other. *)
Theorem C40_set_param_partial : forall K (cs : list (op K)) d o p q, usuals [] cs -> at_ (fst (expecteds [] cs)) d = Some o -> In p (the_params o) -> pname q = pname p ->
  above (plo p) (pval q) && below (phi p) (pval q) = true -> above (plo q) (pval q) && below (phi q) (pval q) = true ->
  let (s, r) := exec (fst (execs start cs)) (SetParam d q) in r = Ok None /\ params s d = Ok (map (fun p' => if String.eqb (pname p') (pname q) then q else p') (the_params o)).
Proof.
  intros K cs d o p q U E I En B1 B2. destruct (run_ok cs start [] rel_start U) as (R & _). set (s := fst (execs start cs)) in *. set (os := fst (expecteds [] cs)) in *. destruct (rel_at s os d o R E) as (x & Ex & St).
  destruct (step_ok s os (SetParam d q) R) as (R' & Er); [simpl; congruence|]. destruct (exec s (SetParam d q)) as (s', r). simpl in *. unfold apply_to in *. rewrite E in *.
  assert (L : set_like p q = (q, Ok tt)). { unfold set_like, set_value. rewrite B1. simpl. unfold set_bounds. simpl. rewrite B2. rewrite <- En. destruct q; reflexivity. }
  assert (O : change_par (pname q) (fun p => set_like p q) o = ({| kind := kind o; inner := map (fun p' => if String.eqb (pname p') (pname q) then q else p') (inner o); added := match added o with IsBand a b => IsBand (if String.eqb (pname a) (pname q) then q else a) (if String.eqb (pname b) (pname q) then q else b) | IsFactor c a => IsFactor c (if String.eqb (pname a) (pname q) then q else a) end |}, Ok tt)).
  { pose proof (st_nodup s x o St) as N. pose proof (st_names s x o St) as Na. unfold the_params in *. rewrite map_app in N. apply in_app_or in I. unfold change_par. rewrite En.
    assert (Z : forall l : list par, ~ In (pname p) (map pname l) -> map (fun p' => if String.eqb (pname p') (pname p) then q else p') l = l). { clear. induction l as [|y l IH]; simpl; intros H; auto. destruct (String.eqb_spec (pname y) (pname p)); [tauto|]. f_equal. tauto. }
    assert (D : forall (l m : list string) x, NoDup (l ++ m) -> In x l -> In x m -> False). { clear. induction l; simpl; intros m x N H1 H2; auto. inversion N; subst. destruct H1 as [->|H1]. apply H3. apply in_or_app. auto. eauto. }
    destruct I as [I|I].
    - assert (G : forall l, In p l -> NoDup (map pname l) -> change_in (pname p) (fun p => set_like p q) l = Some (map (fun p' => if String.eqb (pname p') (pname p) then q else p') l, Ok tt)).
      { induction l as [|y l IH]; simpl; intros [].
        - subst y. intros H0. rewrite String.eqb_refl, L. inversion H0; subst. now rewrite Z.
        - intros H0. inversion H0; subst. destruct (String.eqb_spec (pname y) (pname p)) as [Q|Q]. exfalso. apply H3. rewrite Q. now apply in_map. now rewrite IH. }
      rewrite (G _ I (nodup_l _ _ N)). assert (Nn : ~ In (pname p) (map pname (rest_pars (added o)))) by (intros Q; apply (D _ _ _ N (in_map pname _ _ I) Q)). do 2 f_equal. destruct (added o) as [a b|c a]; simpl in Nn.
      + destruct (String.eqb_spec (pname a) (pname p)); [tauto|]. destruct (String.eqb_spec (pname b) (pname p)); [tauto|]. reflexivity.
      + destruct (String.eqb_spec (pname a) (pname p)); [tauto|]. reflexivity.
    - assert (Nn : ~ In (pname p) (map pname (inner o))) by (intros Q; apply (D _ _ _ N Q (in_map pname _ _ I))). rewrite change_in_position, (proj2 (position_none pname _ _) Nn), (Z _ Nn). destruct (added o) as [a b|c a]; simpl in I, Na.
      + injection Na as Na1 Na2. destruct I as [->|[->|[]]]; rewrite Na1, Na2; simpl; rewrite L; reflexivity.
      + injection Na as Na1. destruct I as [->|[]]. rewrite Na1. simpl. rewrite L. reflexivity. }
  rewrite O in *. simpl in *. split; auto.
  rewrite (params_ok s' _ d _ R' (at_upd_eq os d _ (at_lt os d o E))). f_equal. unfold the_params. simpl. rewrite map_app. f_equal. destruct (added o); reflexivity.
Qed.
Print Assumptions C40_set_param_partial.

(** A parameter that is valid itself is refused if its value is outside the old bounds, although these are to be replaced. *)
Definition sample n v lo hi : par := {| pname := n; pval := v; pscale := 1; plo := Some lo; phi := Some hi; pfree := true; pfixed := false; perr := 0 |}.
Ltac ev := repeat (match goal with
  | |- context [Rleb ?a ?b] => destruct (Rleb_spec a b); [try (exfalso; lra)|try (exfalso; lra)]
  | |- context [Rltb ?a ?b] => destruct (Rltb_spec a b); [try (exfalso; lra)|try (exfalso; lra)]
  | |- context [Reqb ?a ?b] => destruct (Reqb_spec a b); [try (exfalso; lra)|try (exfalso; lra)] end; cbn).
Theorem C40_set_param_refuted : forall K (k : K), let old := sample "Index" (1 / 2) 0 1 in let new := sample "Index" (5 / 2) 2 3 in
  let (s, r) := exec (fst (exec start (New k [old] (Limits 10 100)))) (SetParam 0 new) in r = Throw /\ (l <- params s 0;; vec_get l 0) = Ok old.
Proof. intros K k. cbn. unfold set_like, set_value. cbn. ev. auto. Qed.
Print Assumptions C40_set_param_refuted.

(** Assigning a band to another leaves it with its own limits. *)
Theorem C40_assign_refuted : forall K sval (k : K) e, 10 <= e < 100 -> let cs := [New k [] (Limits 10 100); New k [] (Limits 200 300); Assign 0 1] in
  snd (execs start cs) = [Ok (Some 0%nat); Ok (Some 1%nat); Ok None] /\ value sval (fst (execs start cs)) 0 e = Ok (sval k [] e) /\ value sval (fst (execs start cs)) 1 e = Ok 0.
Proof. intros K sval k e H. cbn. unfold value. cbn. split; auto. unfold true_value. cbn. split; ev; reflexivity. Qed.
Print Assumptions C40_assign_refuted.
(** Assigning one with other parameters throws, and leaves an object whose use is undefined: the spectrum has been replaced. *)
Theorem C40_assign_other_refuted : forall K sval (k : K) e, let cs := [New k [] (Limits 10 100); New k [sample "Index" 1 0 2] (Limits 10 100); Assign 0 1] in
  snd (execs start cs) = [Ok (Some 0%nat); Ok (Some 1%nat); Throw] /\ value sval (fst (execs start cs)) 0 e = UB.
Proof. intros K sval k e. cbn. split; auto. Qed.
Print Assumptions C40_assign_other_refuted.

(** ** C57 *)
(** A scaled spectrum is the spectrum times the factor, or times one minus the factor in the complement form. *)
Theorem C57_value : forall K sval (cs : list (op K)) d k ps c p e, usuals [] cs -> at_ (fst (expecteds [] cs)) d = Some {| kind := k; inner := ps; added := IsFactor c p |} ->
  value sval (fst (execs start cs)) d e = Ok (if c then sval k ps e - true_value p * sval k ps e else true_value p * sval k ps e).
Proof. intros K sval cs d k ps c p e U E. destruct (run_ok cs start [] rel_start U) as (R & _). rewrite (value_ok sval _ _ d _ e R E). unfold the_value. simpl. destruct c; f_equal; ring. Qed.
Print Assumptions C57_value.
(** Its derivatives, by the parameters of the spectrum and by the factor, are right if those of the spectrum are. *)
Theorem C57_derivative : forall K sval sder (cs : list (op K)) d o p e g, is_the_derivative sval sder -> usuals [] cs -> let s := fst (execs start cs) in
  at_ (fst (expecteds [] cs)) d = Some o -> (exists c q, added o = IsFactor c q) -> In p (the_params o) -> deriv sval sder s d (pname p) e = Ok g -> derivative_seen sval s d (pname p) e p g.
Proof. intros K sval sder cs d o p e g H U s E _ I D. eapply derivative_ok; eauto. Qed.
Print Assumptions C57_derivative.

(** The factor stays inside its bounds. *)
Definition within (p : par) : Prop := above (plo p) (pval p) = true /\ below (phi p) (pval p) = true.
Lemma set_like_within p q : within p -> within (fst (set_like p q)).
Proof.
  unfold within, set_like, set_value, set_bounds. intros (A & B). destruct (above (plo p) (pval q)) eqn:E1; simpl; auto. destruct (below (phi p) (pval q)) eqn:E2; simpl; auto. destruct (above (plo q) (pval q)) eqn:E3; simpl; auto. destruct (below (phi q) (pval q)) eqn:E4; simpl; auto.
Qed.
Lemma give_within v p : within p -> within (fst (give v p)).
Proof. unfold within, give. intros (A & B). destruct (above (plo p) v) eqn:E1; simpl; auto. destruct (below (phi p) v) eqn:E2; simpl; auto. Qed.
Definition factor_within {K} (o : object K) : Prop := match added o with IsFactor _ p => within p | _ => True end.
Lemma change_within K n g (o : object K) : (forall p, within p -> within (fst (g p))) -> factor_within o -> factor_within (fst (change_par n g o)).
Proof.
  intros G. unfold factor_within, change_par. destruct (change_in n g (inner o)) as [(l, r)|]; auto. unfold change_added. destruct (added o) as [p q|c p] eqn:A.
  - destruct (String.eqb n "Emin"). destruct (g p); simpl; auto. destruct (String.eqb n "Emax"). destruct (g q); simpl; auto. simpl. rewrite A. auto.
  - destruct (String.eqb n "ScaleFactor"). specialize (G p). destruct (g p); simpl in *; auto. simpl. rewrite A. auto.
Qed.
Lemma within_history K : forall (cs : list (op K)) os, (forall d o, at_ os d = Some o -> factor_within o) -> forall d o, at_ (fst (expecteds os cs)) d = Some o -> factor_within o.
Proof.
  induction cs as [|c cs IH]; intros os W d o E; simpl in E; [eauto|]. destruct (expected os c) as (os1, r) eqn:Ec. destruct (expecteds os1 cs) as (os2, rs) eqn:Es. simpl in E. apply (IH os1) with (d := d); [|now rewrite Es]. clear E Es IH d o.
  assert (Ua : forall (d : nat) (g : object K -> object K * outcome unit), (forall o, factor_within o -> factor_within (fst (g o))) -> forall d2 o2, at_ (fst (apply_to os d g)) d2 = Some o2 -> factor_within o2).
  { intros d g G d2 o2. unfold apply_to. destruct (at_ os d) as [o|] eqn:E; [|simpl; eauto]. destruct (g o) as (o', r') eqn:Eg. simpl. destruct (Nat.eq_dec d2 d) as [->|]. rewrite at_upd_eq by (eapply at_lt; eauto). intros [= <-]. specialize (G o (W d o E)). now rewrite Eg in G. rewrite at_upd_neq by auto. eauto. }
  intros d o. destruct c as [k ps e|d0|d0 d'|d0|d0 q|d0 n v|d0 n v|d0 c]; simpl in Ec.
  - injection Ec as <- <-. rewrite at_add. destruct (Nat.eqb d (length os)); [|eauto]. intros [= <-]. unfold factor_within. simpl. destruct e; simpl; auto. unfold within. simpl. auto.
  - injection Ec as <- <-. rewrite at_add. destruct (Nat.eqb d (length os)); eauto.
  - injection Ec as <- <-. unfold at_ in *. destruct (Nat.eq_dec d d0) as [->|]. destruct (Nat.lt_ge_cases d0 (length os)). rewrite nth_error_upd_eq by auto. intros E. eapply W; eauto.
    rewrite (proj2 (nth_error_None _ _)) by (now rewrite upd_length). discriminate. rewrite nth_error_upd_neq by auto. eauto.
  - injection Ec as <- <-. unfold at_ in *. destruct (Nat.eq_dec d d0) as [->|]. destruct (Nat.lt_ge_cases d0 (length os)). rewrite nth_error_upd_eq by auto. discriminate. rewrite (proj2 (nth_error_None _ _)) by (now rewrite upd_length). discriminate. rewrite nth_error_upd_neq by auto. eauto.
  - specialize (Ua d0 (change_par (pname q) (fun p => set_like p q)) (fun o => change_within K _ _ o (fun p => set_like_within p q)) d o). rewrite Ec in Ua. exact Ua.
  - specialize (Ua d0 (change_par n (give v)) (fun o => change_within K _ _ o (give_within v)) d o). rewrite Ec in Ua. exact Ua.
  - match type of Ec with apply_to os d0 ?g = _ => specialize (Ua d0 g) end. rewrite Ec in Ua. apply Ua. intros o' H. destruct (change_in n (give v) (inner o')) as [(l, r')|]; exact H.
  - match type of Ec with apply_to os d0 ?g = _ => specialize (Ua d0 g) end. rewrite Ec in Ua. apply Ua. intros o' H. unfold factor_within in *. destruct (added o') eqn:A; simpl; auto. now rewrite A.
Qed.
(** In the complement form, with the bounds 0 and 1 and the scale 1 that it asks for, the spectrum is never negative and never more than the original. *)
Theorem C57_complement_partial : forall K sval (cs : list (op K)) d k ps p e, usuals [] cs -> at_ (fst (expecteds [] cs)) d = Some {| kind := k; inner := ps; added := IsFactor true p |} ->
  plo p = Some 0 -> phi p = Some 1 -> pscale p = 1 -> 0 <= sval k ps e -> exists v, value sval (fst (execs start cs)) d e = Ok v /\ 0 <= v <= sval k ps e.
Proof.
  intros K sval cs d k ps p e U E P1 P2 P3 H. rewrite (C57_value K sval cs d k ps true p e U E). eexists. split. reflexivity.
  assert (W : factor_within {| kind := k; inner := ps; added := IsFactor true p |}). { eapply within_history with (os := []); eauto. intros [|d'] o'; discriminate. }
  destruct W as (A & B). simpl in A, B. rewrite P1 in A. rewrite P2 in B. simpl in A, B. destruct (Rleb_spec 0 (pval p)); [|discriminate]. destruct (Rleb_spec (pval p) 1); [|discriminate]. unfold true_value. rewrite P3. nra.
Qed.
Print Assumptions C57_complement_partial.

(** But the form is accepted when only one of the bounds is right: then the spectrum can be negative. *)
Theorem C57_bounds_refuted : forall K sval (k : K) e, sval k [] e = 1 -> let cs := [New k [] (Scale 1 false); SetParam 0 (sample "ScaleFactor" (3 / 2) 0 2); SetFlag 0 true] in
  snd (execs start cs) = [Ok (Some 0%nat); Ok None; Ok None] /\ value sval (fst (execs start cs)) 0 e = Ok (-1 / 2).
Proof.
  intros K sval k e H. cbn. unfold set_param, change. cbn. unfold set_like, set_value. cbn. unfold set_bounds. cbn. ev. unfold set_flag, check_complement. cbn. ev. split; auto. unfold value. cbn. unfold true_value. cbn. rewrite H. f_equal. lra.
Qed.
Print Assumptions C57_bounds_refuted.
(** If it is refused it is set nevertheless ... *)
Theorem C57_refused_refuted : forall K sval (k : K) e, sval k [] e = 1 -> let cs := [New k [] (Scale 3 false); SetFlag 0 true] in
  snd (execs start cs) = [Ok (Some 0%nat); Throw] /\ value sval (fst (execs start cs)) 0 e = Ok (-2).
Proof.
  intros K sval k e H. cbn. split; auto. unfold value. cbn. unfold true_value. cbn. rewrite H. f_equal. lra.
Qed.
Print Assumptions C57_refused_refuted.
(** ... and no object can be constructed in it, since a new factor has no bounds. *)
Theorem C57_constructor_refuted : forall K (s : state K) k ps v, NoDup (map pname ps) -> snd (exec s (New k ps (Scale v true))) = Throw.
Proof.
  intros K s k ps v N. simpl. unfold new_dec. set (f := {| fkind := k; fpars := ps |}). pose proof (set_refs_ok (length (heap s)) f) as SR.
  specialize (SR N (map (fun p => {| own := p; ref := None |}) ps) [] []). simpl in SR. rewrite !app_nil_r, map_length, map_map in SR. rewrite SR by reflexivity. cbn [obind].
  unfold check_complement. cbn [extra_cls dcls dspec slots extra_pars map]. rewrite heap_new. cbn [obind fpars f]. unfold vec_get. rewrite nth_error_app2 by (rewrite refer_length, map_length; reflexivity). rewrite refer_length, map_length. simpl. rewrite Nat.sub_diag. reflexivity.
Qed.
Print Assumptions C57_constructor_refuted.

(** A history with copies of bands and scaled spectra. *)
Example C40_case : forall K (k : K), let p := sample "Index" 1 0 2 in
  let cs := [New k [p] (Limits 10 100); Copy 0; SetNumber 1 "Index" 2; SetParam 1 (sample "Emin" 100 1 1000); SetNumber 1 "Emax" 300; Destroy 0; Copy 1] in
  usuals [] cs /\ at_ (fst (expecteds [] cs)) 2 = Some {| kind := k; inner := [sample "Index" 2 0 2]; added := IsBand (sample "Emin" 100 1 1000) {| pname := "Emax"; pval := 300; pscale := 1; plo := None; phi := None; pfree := false; pfixed := false; perr := 0 |} |}.
Proof.
  intros K k. cbv -[Rleb IZR Rdiv]. ev. split.
  - assert (N : NoDup ["Index"; "Emin"; "Emax"]%string) by (repeat constructor; simpl; intuition discriminate). repeat split; auto; discriminate.
  - reflexivity.
Qed.
Example C57_case : forall K (k : K), let cs := [New k [] (Scale 1 false); SetParam 0 (sample "ScaleFactor" (1 / 4) 0 1); SetFlag 0 true; Copy 0; SetNumber 1 "ScaleFactor" 1] in
  usuals [] cs /\ at_ (fst (expecteds [] cs)) 1 = Some {| kind := k; inner := []; added := IsFactor true (sample "ScaleFactor" 1 0 1) |}.
Proof.
  intros K k. cbv -[Rleb IZR Rdiv]. ev. split.
  - repeat split; try congruence. repeat constructor; simpl; auto. eexists. split; [reflexivity|]. simpl. right. auto.
  - reflexivity.
Qed.

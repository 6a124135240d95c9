(** Proof of C32. *)
From Verif Require Import Base PLCacheModel PLCacheSpec.

Section proofs.
Context (A : numbers) (limit : num A -> Prop) (L : laws A limit).
Notation D := (num A).
Notation "a + b" := (nadd A a b). Notation "a - b" := (nsub A a b). Notation "a * b" := (nmul A a b). Notation "a / b" := (ndiv A a b).
Notation log := (nlog A). Notation exp := (nexp A). Notation pow := (npow A). Notation eqb := (neqb A).
Notation one := (none A).

(** The members computed from the cached index and limits. *)
Record good (c : cache A) : Prop := Good {
  g_lim : limit (cXLo A c) /\ limit (cXHi A c);
  g_llo : cLogXLo A c = log (cXLo A c);
  g_lhi : cLogXHi A c = log (cXHi A c);
  g_plo : cPowXLo A c = pow (cXLo A c) (one + cGamma A c);
  g_phi : cPowXHi A c = pow (cXHi A c) (one + cGamma A c);
  g_fac : eqb (cGamma A c) (nm1 A) = false -> cGXFact A c = (one + cGamma A c) / (cPowXHi A c - cPowXLo A c);
  g_pow : cPowX A c = exp (log (cX A c) * cGamma A c) }.
Definition sgood (s : static A) : Prop := snd s = log (fst s).
(** The state reached once an object exists. *)
Definition gobj (o : object A) : Prop := good (snd o) /\ limit (pLo A (fst o)) /\ limit (pHi A (fst o)).

(** After updateCache the cache holds the values for the arguments. *)
Record fresh (x g lo hi : D) (s : static A) (c : cache A) : Prop := Fresh {
  f_s : snd s = log x;
  f_llo : cLogXLo A c = log lo; f_lhi : cLogXHi A c = log hi;
  f_plo : cPowXLo A c = pow lo (one + g); f_phi : cPowXHi A c = pow hi (one + g);
  f_fac : eqb g (nm1 A) = false -> cGXFact A c = (one + g) / (pow hi (one + g) - pow lo (one + g));
  f_pow : cPowX A c = exp (log x * g) }.

Lemma static_after x (s : static A) : (sgood s \/ eqb (fst s) x = false) -> let s1 := if negb (eqb (fst s) x) then (x, log x) else s in sgood s1 /\ snd s1 = log x.
Proof.
  intros H. simpl. destruct (eqb (fst s) x) eqn:E; simpl; [|split; reflexivity]. destruct H as [H|H]; [|discriminate]. split; auto.
  rewrite H. apply (law_log _ _ L). exact E.
Qed.
Lemma recompute x g lo hi s c : (sgood s \/ eqb (fst s) x = false) -> limit lo -> limit hi -> eqb (x + one) x = false ->
  negb (eqb g (cGamma A c)) || negb (eqb lo (cXLo A c)) || negb (eqb hi (cXHi A c)) = true ->
  let '(s1, c1) := updateCache A x g lo hi s c in sgood s1 /\ good c1 /\ fresh x g lo hi s1 c1.
Proof.
  intros Hs Hl Hh Hx Hd. unfold updateCache. rewrite Hd. simpl. rewrite Hx. simpl. pose proof (static_after x s Hs) as (S1 & S2). simpl in S1, S2.
  split; auto. split; constructor; simpl; auto.
  - intros ->. reflexivity.
  - now rewrite S2.
  - intros ->. reflexivity.
  - now rewrite S2.
Qed.
Lemma reuse x g lo hi s c : (sgood s) -> good c -> limit lo -> limit hi ->
  negb (eqb g (cGamma A c)) || negb (eqb lo (cXLo A c)) || negb (eqb hi (cXHi A c)) = false ->
  let '(s1, c1) := updateCache A x g lo hi s c in sgood s1 /\ good c1 /\ fresh x g lo hi s1 c1.
Proof.
  intros Hs [Glim Gllo Glhi Gplo Gphi Gfac Gpow] Hl Hh Hd. unfold updateCache. rewrite Hd.
  apply orb_false_elim in Hd. destruct Hd as (Hd & E3). apply orb_false_elim in Hd. destruct Hd as (E1 & E2).
  apply negb_false_iff in E1, E2, E3.
  pose proof (static_after x s (or_introl Hs)) as (S1 & S2). cbv zeta in S1, S2.
  pose proof (law_succ _ _ L _ _ E1) as Es. pose proof (law_m1 _ _ L _ _ E1) as Em.
  assert (F : log lo = log (cXLo A c) /\ log hi = log (cXHi A c)) by (split; apply (law_log _ _ L); auto).
  assert (P : pow lo (one + g) = pow (cXLo A c) (one + cGamma A c) /\ pow hi (one + g) = pow (cXHi A c) (one + cGamma A c)).
  { rewrite Es. split; apply (law_pow _ _ L); tauto. }
  destruct F as (F1 & F2). destruct P as (P1 & P2).
  cbv zeta. split; auto.
  destruct (eqb (cX A c) x) eqn:Ex; simpl.
  - split; constructor; simpl; auto; try congruence.
    + intros H. rewrite P1, P2, Es, <- Gplo, <- Gphi. apply Gfac. congruence.
    + rewrite Gpow. rewrite (law_exp _ _ L _ _ _ E1). now rewrite (law_log _ _ L _ _ Ex).
  - split; constructor; simpl; auto; try congruence.
    + rewrite S2. apply (law_exp _ _ L). exact E1.
    + intros H. rewrite P1, P2, Es, <- Gplo, <- Gphi. apply Gfac. congruence.
Qed.
Lemma update_ok x g lo hi s c : sgood s -> good c -> limit lo -> limit hi -> eqb (x + one) x = false ->
  let '(s1, c1) := updateCache A x g lo hi s c in sgood s1 /\ good c1 /\ fresh x g lo hi s1 c1.
Proof.
  intros. destruct (negb (eqb g (cGamma A c)) || negb (eqb lo (cXLo A c)) || negb (eqb hi (cXHi A c))) eqn:E; [apply recompute|apply reuse]; auto.
Qed.

(** The static cache is right as soon as there is an object. *)
Definition inv (st : state A) : Prop := (snd st = [] /\ fst st = (nzero A, nzero A) \/ sgood (fst st)) /\ Forall gobj (snd st).
Lemma nth_obj (os : list (object A)) i o : Forall gobj os -> nth_error os i = Some o -> gobj o.
Proof. intros H E. rewrite Forall_forall in H. apply H. eapply nth_error_In; eauto. Qed.
Lemma Forall_upd {X} (P : X -> Prop) : forall l i x, Forall P l -> P x -> Forall P (upd l i x).
Proof. induction l as [|a l IH]; intros [|i] x H Hx; simpl; auto; inversion H; subst; constructor; auto. Qed.
Lemma map_upd {X Y} (f : X -> Y) : forall l i x, map f (upd l i x) = upd (map f l) i (f x).
Proof. induction l as [|a l IH]; intros [|i] x; simpl; auto. f_equal. apply IH. Qed.
Lemma upd_self {X} : forall (l : list X) i x, nth_error l i = Some x -> upd l i x = l.
Proof. induction l as [|a l IH]; intros [|i] x; simpl; try discriminate. intros [= ->]. reflexivity. intros H. f_equal. now apply IH. Qed.
Lemma map_nth (os : list (object A)) i : nth_error (map fst os) i = match @nth_error (object A) os i with Some x => Some (fst x) | None => None end.
Proof. apply nth_error_map. Qed.

Lemma step_ok st c : inv st -> ordinary A limit c -> eqb (one + one) one = false ->
  let '(st1, r) := step A st c in inv st1 /\ ref_step A (map fst (snd st)) c = (map fst (snd st1), r).
Proof.
  destruct st as [s os]. intros [Hs Ho] Hc H11. simpl in Hs, Ho.
  assert (Hsg : forall i o, nth_error os i = Some o -> sgood s).
  { intros i o H. destruct Hs as [[-> _]|Hs]; auto. destruct i; discriminate. }
  destruct c as [n g lo hi junk|i|i j|i p|i x|i k x]; cbn [step ref_step ordinary snd fst] in *.
  - destruct Hc as (Hg & Hl & Hh). unfold construct.
    cbv zeta. match goal with |- context [updateCache A one g lo hi s ?c] => set (c0 := c) end.
    pose proof (recompute one g lo hi s c0) as R. destruct (updateCache A one g lo hi s c0) as [s1 c1].
    destruct R as (R1 & R2 & R3); auto.
    + destruct Hs as [[_ ->]|Hs]; [right; simpl; apply (law_01 _ _ L)|now left].
    + unfold c0; simpl. rewrite Hg. reflexivity.
    + split; [split; simpl; auto|].
      * apply Forall_app. split; auto. constructor; auto. repeat split; simpl; auto; apply R2.
      * simpl. rewrite map_app. reflexivity.
  - rewrite map_nth. destruct (nth_error os i) as [o|] eqn:E; split; try (split; simpl; auto; fail).
    + split; simpl. right. eapply Hsg; eauto. apply Forall_app. split; auto. constructor; auto. eapply nth_obj; eauto.
    + simpl. now rewrite map_app.
  - rewrite !map_nth. destruct (nth_error os i) as [o|] eqn:E; [destruct (nth_error os j) as [o'|] eqn:E'|]; split; try (split; simpl; auto; fail); try reflexivity.
    + split; simpl. right. eapply Hsg; eauto. apply Forall_upd; auto. eapply nth_obj; eauto.
    + simpl. now rewrite map_upd.
  - rewrite map_nth. destruct (nth_error os i) as [o|] eqn:E; split; try (split; simpl; auto; fail); try reflexivity.
    + split; simpl. right. eapply Hsg; eauto. apply Forall_upd; auto. split; simpl; auto. eapply nth_obj; eauto.
    + simpl. now rewrite map_upd.
  - rewrite map_nth. destruct (nth_error os i) as [[p c]|] eqn:E; [|split; [split; simpl; auto|reflexivity]].
    destruct (nth_obj _ _ _ Ho E) as (G & Hl & Hh). simpl in G, Hl, Hh.
    unfold value. cbn [fst snd]. pose proof (update_ok x (pIndex A p) (pLo A p) (pHi A p) s c (Hsg _ _ E) G Hl Hh Hc) as U.
    destruct (updateCache A x (pIndex A p) (pLo A p) (pHi A p) s c) as [s1 c1]. destruct U as (U1 & U2 & [F1 F2 F3 F4 F5 F6 F7]).
    split.
    + split; [right; exact U1|]. apply (@Forall_upd (object A) gobj os i (p, c1)); auto. split; auto.
    + simpl. rewrite map_upd. simpl. rewrite (upd_self (map fst os) i p); [|rewrite map_nth, E; reflexivity].
      unfold closed_value. rewrite F2, F3, F7. destruct (eqb (pIndex A p) (nm1 A)) eqn:Em; [reflexivity|]. now rewrite F6.
  - rewrite map_nth. destruct (nth_error os i) as [[p c]|] eqn:E; [|split; [split; simpl; auto|reflexivity]].
    destruct (nth_obj _ _ _ Ho E) as (G & Hl & Hh). simpl in G, Hl, Hh.
    unfold deriv. destruct k as [k|].
    2:{ split. split. right. eapply Hsg; eauto. apply (@Forall_upd (object A) gobj os i (p, c)); auto. split; auto. simpl. rewrite map_upd. simpl. rewrite (upd_self (map fst os) i p); [|rewrite map_nth, E; reflexivity]. reflexivity. }
    cbn [fst snd]. cbv zeta. pose proof (update_ok x (pIndex A p) (pLo A p) (pHi A p) s c (Hsg _ _ E) G Hl Hh Hc) as U.
    destruct (updateCache A x (pIndex A p) (pLo A p) (pHi A p) s c) as [s1 c1]. destruct U as (U1 & U2 & [F1 F2 F3 F4 F5 F6 F7]).
    split.
    + split; [right; exact U1|]. apply (@Forall_upd (object A) gobj os i (p, c1)); auto. split; auto.
    + simpl. rewrite map_upd. simpl. rewrite (upd_self (map fst os) i p); [|rewrite map_nth, E; reflexivity].
      f_equal. unfold closed_deriv. destruct k as [|[|[|[|k]]]]; simpl; auto.
      * rewrite F2, F3, F7. destruct (eqb (pIndex A p) (nm1 A)) eqn:Em; [reflexivity|]. now rewrite F6.
      * rewrite F1, F2, F3, F4, F5, F7. destruct (eqb (pIndex A p) (nm1 A)) eqn:Em; reflexivity.
Qed.
Lemma run_ok cs : forall st, inv st -> Forall (ordinary A limit) cs -> eqb (one + one) one = false -> run A st cs = ref_run A (map fst (snd st)) cs.
Proof.
  induction cs as [|c cs IH]; intros st Hi Hc H1; simpl; auto. inversion Hc as [|? ? C1 C2]; subst.
  pose proof (step_ok st c Hi C1 H1) as S. destruct (step A st c) as [st1 r]. destruct S as (S1 & ->). f_equal. apply IH; auto.
Qed.
Lemma init_inv : inv (init A).
Proof. split; simpl; auto. Qed.
End proofs.

(** An energy that adding 1. does not change, after a change of the index. *)
Section stale.
Context (A : numbers).
Notation eqb := (neqb A). Notation one := (none A).
Lemma update_new x g lo hi s c : eqb g (cGamma A c) = false -> eqb (fst s) x = false -> eqb (nadd A x one) x = false ->
  updateCache A x g lo hi s c = ((x, nlog A x), Cache A g lo hi (nlog A lo) (nlog A hi) (npow A lo (nadd A one g)) (npow A hi (nadd A one g))
    (if negb (eqb g (nm1 A)) then ndiv A (nadd A one g) (nsub A (npow A hi (nadd A one g)) (npow A lo (nadd A one g))) else cGXFact A c) x (nexp A (nmul A (nlog A x) g))).
Proof. intros H1 H2 H3. unfold updateCache. rewrite H1, H2. cbn [negb orb cX snd fst]. rewrite H3. reflexivity. Qed.
Lemma update_x x g lo hi s c : eqb g (cGamma A c) = true -> eqb lo (cXLo A c) = true -> eqb hi (cXHi A c) = true -> eqb (fst s) x = false -> eqb (cX A c) x = false ->
  updateCache A x g lo hi s c = ((x, nlog A x), Cache A (cGamma A c) (cXLo A c) (cXHi A c) (cLogXLo A c) (cLogXHi A c) (cPowXLo A c) (cPowXHi A c) (cGXFact A c) x (nexp A (nmul A (nlog A x) g))).
Proof. intros H1 H2 H3 H4 H5. unfold updateCache. rewrite H1, H2, H3, H4. cbn [negb orb snd fst]. rewrite H5. reflexivity. Qed.
Lemma update_stale x g lo hi s c : eqb g (cGamma A c) = false -> eqb (fst s) x = true -> eqb (nadd A x one) x = true ->
  updateCache A x g lo hi s c = (s, Cache A g lo hi (nlog A lo) (nlog A hi) (npow A lo (nadd A one g)) (npow A hi (nadd A one g))
    (if negb (eqb g (nm1 A)) then ndiv A (nadd A one g) (nsub A (npow A hi (nadd A one g)) (npow A lo (nadd A one g))) else cGXFact A c) (nadd A x one) (cPowX A c)).
Proof. intros H1 H2 H3. unfold updateCache. rewrite H1, H2. cbn [negb orb cX snd fst]. rewrite H3. reflexivity. Qed.
Lemma stale x n g g' lo hi junk :
  eqb (nzero A) one = false -> eqb (nadd A one one) one = false -> eqb one x = false -> eqb (nadd A x one) x = true -> eqb x x = true ->
  eqb g (nadd A g one) = false -> eqb g' g = false -> eqb g' (nm1 A) = false -> eqb g g = true -> eqb lo lo = true -> eqb hi hi = true ->
  run A (init A) [OnNew A n g lo hi junk; OnValue A 0 x; OnSet A 0 (Params A n g' lo hi one one); OnValue A 0 x] =
  [Ok None; Ok (Some (closed_value A (Params A n g lo hi one one) x)); Ok None;
   Ok (Some (nmul A (nmul A n (ndiv A (nadd A one g') (nsub A (npow A hi (nadd A one g')) (npow A lo (nadd A one g'))))) (nexp A (nmul A (nlog A x) g))))].
Proof.
  intros E1 E2 E3 E4 E5 H1 H2 H3 H4 H5 H6.
  cbn [run step init]. unfold construct. cbv zeta. rewrite update_new by assumption. cbn [app run step nth_error]. unfold value. cbn [fst snd pIndex pLo pHi pInt].
  rewrite update_x by assumption. cbn [app run step nth_error upd fst snd cGamma cXLo cXHi cLogXLo cLogXHi cPowXLo cPowXHi cGXFact cX cPowX]. unfold value. cbn [fst snd pIndex pLo pHi pInt].
  rewrite update_stale by assumption. cbn [cGXFact cPowX cLogXHi cLogXLo]. rewrite H3. cbn [negb]. unfold closed_value. cbn [pIndex pLo pHi pInt].
  destruct (eqb g (nm1 A)); reflexivity.
Qed.
End stale.

(** Wrapping spectra: the objects that share parameters with their spectra behave like values. *)
From Coq Require Import Reals Lra String List Bool PeanoNat Lia.
From Verif Require Import Base AccumModel AccumProofs DecModel DecSpec.
Import ListNotations.
Local Open Scope R_scope.
Local Open Scope list_scope.
Local Open Scope outcome_scope.

(** *** Positions *)
Lemma position_map {T} (nm : T -> string) n : forall l, position nm n l = position (fun x => x) n (map nm l).
Proof. induction l as [|p l IH]; simpl; auto. destruct (String.eqb (nm p) n); auto. now rewrite IH. Qed.
Lemma position_some {T} (nm : T -> string) n : forall l i, position nm n l = Some i -> exists p, nth_error l i = Some p /\ nm p = n /\ (i < length l)%nat.
Proof.
  induction l as [|p l IH]; simpl; [discriminate|]. intros i. destruct (String.eqb_spec (nm p) n) as [E|E].
  - intros [= <-]. exists p. simpl. split; auto. split; auto. lia.
  - destruct (position nm n l) as [j|]; [|discriminate]. intros [= <-]. destruct (IH j eq_refl) as (q & A & B & C). exists q. simpl. split; auto. split; auto. lia.
Qed.
Lemma position_none {T} (nm : T -> string) n : forall l, position nm n l = None <-> ~ In n (map nm l).
Proof.
  induction l as [|p l IH]; simpl; [tauto|]. destruct (String.eqb_spec (nm p) n) as [E|E]. split; [discriminate|tauto]. destruct (position nm n l); split; try discriminate; try tauto. intros H. exfalso. apply H. right. destruct (in_dec string_dec n (map nm l)); auto. exfalso. destruct IH as (_ & IH). discriminate (IH n1).
Qed.
Lemma position_nodup {T} (nm : T -> string) : forall l i p, NoDup (map nm l) -> nth_error l i = Some p -> position nm (nm p) l = Some i.
Proof.
  induction l as [|q l IH]; intros [|i] p N E; try discriminate; simpl in *.
  - injection E as ->. now rewrite String.eqb_refl.
  - inversion N as [|? ? N1 N2]; subst. destruct (String.eqb_spec (nm q) (nm p)) as [Eq|Ne]. exfalso. apply N1. rewrite Eq. apply in_map. eapply nth_error_In; eauto. now rewrite (IH i p).
Qed.
Lemma position_app {T} (nm : T -> string) n : forall a b, position nm n (a ++ b) = match position nm n a with Some i => Some i | None => match position nm n b with Some i => Some (length a + i)%nat | None => None end end.
Proof.
  induction a as [|p a IH]; intros b; simpl. destruct (position nm n b); auto. destruct (String.eqb (nm p) n); auto. rewrite IH. destruct (position nm n a); auto. destruct (position nm n b); auto.
Qed.
Lemma upd_app_l {T} (l m : list T) : forall i x, (i < length l)%nat -> upd (l ++ m) i x = upd l i x ++ m.
Proof. induction l; intros [|i] x H; simpl in *; try lia; auto. f_equal. apply IHl. lia. Qed.
Lemma upd_app_r {T} (l m : list T) : forall i x, upd (l ++ m) (length l + i) x = l ++ upd m i x.
Proof. induction l; intros i x; simpl; auto. f_equal. apply IHl. Qed.

(** *** The references *)
Fixpoint refer (a i : nat) (l : list slot) : list slot :=
  match l with
  | [] => []
  | sl :: l => {| own := own sl; ref := Some (a, i) |} :: refer a (S i) l
  end.
Notation bare p := {| own := p; ref := None |}.
Lemma refer_length a : forall l i, length (refer a i l) = length l. Proof. induction l; intros; simpl; auto. Qed.
Lemma refer_refer a b : forall l i, refer a i (refer b i l) = refer a i l. Proof. induction l; intros; simpl; f_equal; auto. Qed.
Lemma refer_names a : forall l i, map (fun sl => pname (own sl)) (refer a i l) = map (fun sl => pname (own sl)) l. Proof. induction l; intros; simpl; f_equal; auto. Qed.
Lemma refer_nth a : forall l i j sl, nth_error l j = Some sl -> nth_error (refer a i l) j = Some {| own := own sl; ref := Some (a, (i + j)%nat) |}.
Proof. induction l; intros i [|j] sl E; try discriminate; simpl in *. injection E as ->. now rewrite Nat.add_0_r. rewrite (IHl (S i) j sl E). now replace (i + S j)%nat with (S i + j)%nat by lia. Qed.

Section Wrapped.
Context {K : Type}.
Implicit Types (s : state K) (f : func K).

Lemma set_refs_ok a f : NoDup (map pname (fpars f)) -> forall mid pre post, map (fun sl => pname (own sl)) mid = map pname (skipn (length pre) (fpars f)) ->
  set_refs a f (length mid) (length pre) (pre ++ mid ++ post) = (pre ++ refer a (length pre) mid ++ post, Ok tt).
Proof.
  intros N. induction mid as [|sl mid IH]; intros pre post E; simpl; auto. rewrite nth_error_app2, Nat.sub_diag by lia. simpl.
  destruct (skipn (length pre) (fpars f)) as [|p ps] eqn:Sk; [discriminate|]. simpl in E. injection E as En Er.
  assert (Ep : nth_error (fpars f) (length pre) = Some p). { rewrite <- (firstn_skipn (length pre) (fpars f)). rewrite Sk, nth_error_app2; rewrite firstn_length; assert (length pre < length (fpars f))%nat by (assert (L : length (skipn (length pre) (fpars f)) = S (length ps)) by (rewrite Sk; auto); rewrite skipn_length in L; lia); [|lia]. replace (length pre - _)%nat with 0%nat by lia. reflexivity. }
  rewrite En, (position_nodup pname (fpars f) _ p N Ep). rewrite <- (Nat.add_0_r (length pre)) at 2. rewrite upd_app_r. simpl.
  specialize (IH (pre ++ [{| own := own sl; ref := Some (a, length pre) |}]) post). rewrite app_length in IH. simpl in IH. rewrite Nat.add_1_r, <- !app_assoc in IH. simpl in IH. apply IH.
  rewrite Er. f_equal. clear - Sk. revert Sk. generalize (fpars f) (length pre). intros l n. revert n. induction l as [|y l IHl]; intros [|n] H; simpl in *; try discriminate. injection H as -> ->. reflexivity. now apply IHl in H.
Qed.

(** A wrapper and what it stands for. *)
Definition cls_of (r : rest) : cls := match r with IsBand _ _ => Band | IsFactor c _ => Factor c end.
Record stands s (x : dec) (o : object K) : Prop := {
  st_func : the_func s (dspec x) = Ok {| fkind := kind o; fpars := inner o |};
  st_slots : exists l, map (fun sl => pname (own sl)) l = map pname (inner o) /\ slots x = refer (dspec x) 0 l ++ map (fun p => bare p) (rest_pars (added o));
  st_nodup : NoDup (map pname (the_params o));
  st_names : map pname (rest_pars (added o)) = rest_names (added o);
  st_cls : dcls x = cls_of (added o) }.
Record Rel s (os : objects K) : Prop := {
  rel_len : length (decs s) = length os;
  rel_st : forall d, match nth_error (decs s) d with Some (Some x) => exists o, at_ os d = Some o /\ stands s x o | _ => at_ os d = None end;
  rel_own : forall d d' x x', nth_error (decs s) d = Some (Some x) -> nth_error (decs s) d' = Some (Some x') -> dspec x = dspec x' -> d = d' }.

Lemma the_dec_some s d x : the_dec s d = Ok x <-> nth_error (decs s) d = Some (Some x).
Proof. unfold the_dec. destruct (nth_error (decs s) d) as [[y|]|]; split; congruence. Qed.
Lemma the_func_some s a f : the_func s a = Ok f <-> nth_error (heap s) a = Some (Some f).
Proof. unfold the_func. destruct (nth_error (heap s) a) as [[y|]|]; split; congruence. Qed.
Lemma rel_at s os d o : Rel s os -> at_ os d = Some o -> exists x, the_dec s d = Ok x /\ stands s x o.
Proof.
  intros R E. pose proof (rel_st s os R d) as H. destruct (nth_error (decs s) d) as [[x|]|] eqn:Ed; [|congruence|congruence]. destruct H as (o' & E' & St). exists x. split. now apply the_dec_some. congruence.
Qed.
Lemma rel_dec s os d x : Rel s os -> the_dec s d = Ok x -> exists o, at_ os d = Some o /\ stands s x o.
Proof. intros R E. apply the_dec_some in E. pose proof (rel_st s os R d) as H. now rewrite E in H. Qed.
Lemma rel_none s os d : Rel s os -> at_ os d = None -> the_dec s d = UB.
Proof. intros R E. pose proof (rel_st s os R d) as H. unfold the_dec. destruct (nth_error (decs s) d) as [[x|]|]; auto. destruct H as (o & E' & _). congruence. Qed.

(** Reading the parameters. *)
Lemma inner_slot s x o i p : stands s x o -> nth_error (inner o) i = Some p -> exists q, nth_error (slots x) i = Some {| own := q; ref := Some (dspec x, i) |} /\ slot_par s {| own := q; ref := Some (dspec x, i) |} = Ok p /\ pname q = pname p.
Proof.
  intros [F (l & En & El) _ _ _] E. assert (Hi : (i < length (inner o))%nat) by (apply nth_error_Some; congruence).
  assert (Ll : length l = length (inner o)) by (rewrite <- (map_length (fun sl => pname (own sl)) l), En, map_length; auto).
  destruct (nth_error l i) as [sl|] eqn:Es; [|apply nth_error_None in Es; lia]. exists (own sl). split; [|split].
  - rewrite El, nth_error_app1 by (rewrite refer_length; lia). exact (refer_nth _ _ 0%nat _ _ Es).
  - unfold slot_par. simpl. rewrite F. simpl. unfold vec_get. now rewrite E.
  - assert (Q : nth_error (map (fun sl => pname (own sl)) l) i = nth_error (map pname (inner o)) i) by congruence. rewrite (map_nth_error _ _ _ Es), (map_nth_error _ _ _ E) in Q. congruence.
Qed.
Lemma added_slot s x o i p : stands s x o -> nth_error (rest_pars (added o)) i = Some p -> nth_error (slots x) (length (inner o) + i) = Some (bare p) /\ slot_par s (bare p) = Ok p.
Proof.
  intros [F (l & En & El) _ _ _] E. assert (Ll : length l = length (inner o)) by (rewrite <- (map_length (fun sl => pname (own sl)) l), En, map_length; auto).
  split; auto. rewrite El, nth_error_app2, refer_length by (rewrite refer_length; lia). replace (length (inner o) + i - length l)%nat with i by lia. exact (map_nth_error (fun p => {| own := p; ref := None |}) i _ E).
Qed.
Lemma slot_names s x o : stands s x o -> map (fun sl => pname (own sl)) (slots x) = map pname (the_params o).
Proof. intros [F (l & En & El) _ _ _]. rewrite El, map_app, refer_names, En. unfold the_params. rewrite map_app, map_map. reflexivity. Qed.
Lemma slot_position s x o n : stands s x o -> position (fun sl => pname (own sl)) n (slots x) = position pname n (the_params o).
Proof. intros St. rewrite position_map, (slot_names s x o St), <- position_map. reflexivity. Qed.

Lemma params_ok s os d o : Rel s os -> at_ os d = Some o -> params s d = Ok (the_params o).
Proof.
  intros R E. destruct (rel_at s os d o R E) as (x & Ex & St). unfold params. rewrite Ex. simpl.
  assert (G : forall sls ps acc, Forall2 (fun sl p => slot_par s sl = Ok p) sls ps -> mfold (fun acc sl => p <- slot_par s sl;; Ok (acc ++ [p])) sls acc = Ok (acc ++ ps)).
  { intros sls ps acc H0. revert acc. induction H0 as [|sl p sls ps H H2 IH]; intros acc; simpl; [now rewrite app_nil_r|]. rewrite H. simpl. rewrite IH, <- app_assoc. reflexivity. }
  rewrite (G _ (the_params o)); auto. unfold the_params. pose proof St as [F (l & En & El) _ _ _]. rewrite El. apply Forall2_app.
  - assert (Ll : length l = length (inner o)) by (rewrite <- (map_length (fun sl => pname (own sl)) l), En, map_length; auto).
    assert (G2 : forall l ps i, length l = length ps -> (forall j p, nth_error ps j = Some p -> nth_error (inner o) (i + j) = Some p) -> Forall2 (fun sl p => slot_par s sl = Ok p) (refer (dspec x) i l) ps).
    { clear l En El Ll. induction l as [|sl l IH]; intros [|p ps] i L H; try discriminate; simpl; constructor.
      - unfold slot_par. simpl. rewrite F. simpl. unfold vec_get. specialize (H 0%nat p eq_refl). rewrite Nat.add_0_r in H. now rewrite H.
      - apply IH. simpl in L. lia. intros j q Ej. replace (S i + j)%nat with (i + S j)%nat by lia. auto. }
    apply G2; auto.
  - clear. induction (rest_pars (added o)); simpl; constructor; auto; reflexivity.
Qed.

Variable sval : K -> list par -> R -> R.
Variable sder : K -> list par -> string -> R -> outcome R.
Lemma Rltb_neg a b : Rltb a b = negb (Rleb b a).
Proof. destruct (Rltb_spec a b), (Rleb_spec b a); simpl; auto; lra. Qed.
Lemma value_ok s os d o e : Rel s os -> at_ os d = Some o -> value sval s d e = Ok (the_value sval o e).
Proof.
  intros R E. destruct (rel_at s os d o R E) as (x & Ex & St). unfold value, the_value. rewrite Ex. simpl. rewrite (st_func s x o St). simpl. rewrite (st_cls s x o St). destruct (added o) as [p q|c p] eqn:A; simpl.
  - destruct (added_slot s x o 0 p St) as (S0 & P0); [now rewrite A|]. destruct (added_slot s x o 1 q St) as (S1 & P1); [now rewrite A|]. rewrite Nat.add_0_r in S0. unfold vec_get. rewrite S0. cbn [obind]. rewrite P0. cbn [obind]. rewrite S1. cbn [obind]. rewrite P1. cbn [obind].
    rewrite (Rltb_neg e (true_value q)), (Rltb_neg e (true_value p)). destruct (Rleb (true_value p) e), (Rleb (true_value q) e); reflexivity.
  - destruct (added_slot s x o 0 p St) as (S0 & P0); [now rewrite A|]. rewrite Nat.add_0_r in S0. unfold vec_get. rewrite S0. cbn [obind]. rewrite P0. reflexivity.
Qed.
Lemma is_inner_position (o : object K) n : is_inner o n = match position pname n (inner o) with Some _ => true | None => false end.
Proof. unfold is_inner. induction (inner o) as [|p l IH]; simpl; auto. destruct (String.eqb (pname p) n); simpl; auto. rewrite IH. destruct (position pname n l); auto. Qed.
Lemma deriv_ok s os d o n e : Rel s os -> at_ os d = Some o -> deriv sval sder s d n e = the_deriv sval sder o n e.
Proof.
  intros R E. destruct (rel_at s os d o R E) as (x & Ex & St). unfold deriv, the_deriv. rewrite Ex. simpl. rewrite (slot_position s x o n St), is_inner_position. unfold the_params. rewrite position_app.
  destruct (position pname n (inner o)) as [i|] eqn:Pi.
  - rewrite (st_func s x o St). simpl. rewrite (st_cls s x o St). destruct (position_some _ _ _ _ Pi) as (_ & _ & _ & Hi). destruct (added o) as [p q|c p] eqn:A; simpl.
    + rewrite (proj2 (Nat.leb_gt _ _) Hi). destruct (added_slot s x o 0 p St) as (S0 & P0); [now rewrite A|]. destruct (added_slot s x o 1 q St) as (S1 & P1); [now rewrite A|]. rewrite Nat.add_0_r in S0. unfold vec_get.
      rewrite S0. cbn [obind]. rewrite P0. cbn [obind]. rewrite S1. cbn [obind]. rewrite P1. cbn [obind]. reflexivity.
    + destruct (added_slot s x o 0 p St) as (S0 & P0); [now rewrite A|]. rewrite Nat.add_0_r in S0. unfold vec_get. rewrite S0. cbn [obind]. rewrite P0. cbn [obind]. rewrite (proj2 (Nat.ltb_lt _ _) Hi). destruct (sder (kind o) (inner o) n e); reflexivity.
  - pose proof (st_names s x o St) as Na. rewrite (position_map pname n (rest_pars (added o))), Na. destruct (added o) as [p q|c p] eqn:A; cbn [rest_names position].
    + destruct (String.eqb "Emin" n); [|destruct (String.eqb "Emax" n)]; auto; rewrite (st_func s x o St); cbn [obind]; rewrite (st_cls s x o St), A; cbn [cls_of fpars]; rewrite (proj2 (Nat.leb_le _ _)); auto; lia.
    + rewrite (String.eqb_sym n). destruct (String.eqb "ScaleFactor" n); auto. rewrite (st_func s x o St). simpl. rewrite (st_cls s x o St), A. simpl. destruct (added_slot s x o 0 p St) as (S0 & P0); [now rewrite A|]. rewrite Nat.add_0_r in S0 |- *.
      unfold vec_get. rewrite S0. cbn [obind]. rewrite P0. cbn [obind]. rewrite Nat.ltb_irrefl. destruct c; f_equal; ring.
Qed.
End Wrapped.

(** Writing and reading diffuse responses: for C54. *)
From Coq Require Import Reals String Ascii.
From Verif Require Import Base AccumModel EvtModel EvtSpec EvtProofs.
Local Open Scope nat_scope.

(** ** Tables *)
Section Tables.
Context {A : Type}.
Implicit Types t : list (string * A).
Lemma tfind_tset_eq k a t : tfind k (tset k a t) = Some a.
Proof. induction t as [|[k' a'] t IH]; simpl. now rewrite String.eqb_refl. destruct (String.eqb k k') eqn:E; simpl. now rewrite String.eqb_refl. now rewrite E. Qed.
Lemma tfind_tset_neq k k' a t : k <> k' -> tfind k (tset k' a t) = tfind k t.
Proof.
  intros N. assert (F : String.eqb k k' = false) by now apply String.eqb_neq. induction t as [|[x a'] t IH]; simpl. now rewrite F.
  destruct (String.eqb_spec k' x) as [->|N']; simpl. now rewrite F. destruct (String.eqb k x); auto.
Qed.
Lemma tfind_app k t1 t2 : tfind k (t1 ++ t2)%list = match tfind k t1 with Some a => Some a | None => tfind k t2 end.
Proof. induction t1 as [|[x a] t1 IH]; simpl; auto. destruct (String.eqb k x); auto. Qed.
End Tables.
Definition field (i : nat) : string := ("DIFRSP" ++ decimal i)%string.
Lemma field_inj i j : field i = field j -> i = j.
Proof. intros H. apply decimal_inj. apply (append_inj "DIFRSP"). exact H. Qed.
Lemma key_nth d i c : dr_root d = "DIFRSP"%string -> NoDup (dr_cols d) -> nth_error (dr_cols d) i = Some c -> dr_key d c = Ok (field i).
Proof. intros R ND H. unfold dr_key. rewrite (index_of_nth _ _ _ ND H), R. reflexivity. Qed.

(** ** Reading *)
Lemma read_names_ok f : dr_root (read_names f) = "DIFRSP"%string /\ dr_cols (read_names f) = firsts [] (f_hdr f).
Proof. unfold read_names. destruct (addColumn_cols (f_hdr f) (mk_drn "DIFRSP" [])) as [A B]. split; auto. Qed.
Section Read.
Context (f : ft1) (r : nat).
Notation names := (firsts [] (f_hdr f)).
Hypothesis Hc : forall i, i < length names -> exists c, tfind (field i) (f_cols f) = Some c /\ length c = f_rows f.
Hypothesis Hr : r < f_rows f.
Definition cell (i : nat) : R := match tfind (field i) (f_cols f) with Some c => nth r c 0%R | None => 0%R end.
Lemma read_step : forall l i e, (forall j c, nth_error l j = Some c -> nth_error names (i + j) = Some c) ->
  exists e', mfold (fun e name => obind (dr_key (read_names f) name) (fun col => match tfind col (f_cols f) with None => Throw | Some c => obind (vec_get c r) (fun v => Ok (setDiffuseResponse e name v)) end)) l e = Ok e' /\
    (forall j c, nth_error l j = Some c -> tfind c e' = Some [cell (i + j)]) /\ forall c, ~ In c l -> tfind c e' = tfind c e.
Proof.
  destruct (read_names_ok f) as [R1 R2]. pose proof (firsts_nodup (f_hdr f) []) as ND.
  induction l as [|c l IH]; intros i e H; cbn [mfold].
  - exists e. split; auto. split; auto. intros [|j] c; discriminate.
  - pose proof (H 0 c eq_refl) as H0. rewrite Nat.add_0_r in H0. rewrite (key_nth _ i c R1) by (rewrite R2; auto). cbn [obind].
    destruct (Hc i) as (col & F & Lc). { apply nth_error_Some. congruence. } rewrite F. rewrite (vec_get_ok col r 0%R) by lia. cbn [obind].
    destruct (IH (S i) (setDiffuseResponse e c (nth r col 0%R))) as (e' & E & P & Q). { intros j x Hx. rewrite Nat.add_succ_comm. now apply H. }
    exists e'. split; auto. split.
    + intros [|j] x Hx; simpl in Hx.
      * injection Hx as <-. rewrite Nat.add_0_r. destruct (in_dec string_dec c l) as [Il|Nl].
        -- apply In_nth_error in Il as (j & Hj). pose proof (H (S j) c Hj) as Hj'. exfalso. rewrite NoDup_nth_error in ND. assert (i = i + S j); [|lia]. apply ND. apply nth_error_Some; congruence. congruence.
        -- rewrite Q by auto. unfold setDiffuseResponse. rewrite tfind_tset_eq. unfold cell. now rewrite F.
      * rewrite <- Nat.add_succ_comm. now apply P.
    + intros x Hx. rewrite Q by (intros I; apply Hx; now right). unfold setDiffuseResponse. apply tfind_tset_neq. intros ->. apply Hx. now left.
Qed.
Lemma read_row_ok : exists e, read_row f r = Ok e /\ (forall j c, nth_error names j = Some c -> tfind c e = Some [cell j]) /\ forall c, ~ In c (f_hdr f) -> tfind c e = None.
Proof.
  unfold read_row. destruct (read_names_ok f) as [R1 R2]. rewrite R2. destruct (read_step names 0 []) as (e & E & P & Q); auto. exists e. split; auto. split; auto.
  intros c N. rewrite Q; auto. rewrite firsts_in. tauto.
Qed.
End Read.

(** ** Tidy files *)
Lemma firsts_app l1 : forall seen l2, firsts seen (l1 ++ l2)%list = (firsts seen l1 ++ firsts (seen ++ firsts seen l1) l2)%list.
Proof.
  induction l1 as [|x l1 IH]; intros seen l2; simpl. now rewrite app_nil_r. destruct (existsb (String.eqb x) seen); simpl; auto. now rewrite IH, <- app_assoc.
Qed.
Lemma firsts_id l : forall seen, NoDup l -> (forall x, In x l -> ~ In x seen) -> firsts seen l = l.
Proof.
  induction l as [|x l IH]; intros seen ND H; simpl; auto. inversion ND as [|? ? N1 N2]; subst. destruct (existsb (String.eqb x) seen) eqn:E. { apply existsb_str in E. elim (H x); simpl; auto. }
  f_equal. apply IH; auto. intros y Hy. rewrite in_app_iff. simpl. intros [A|[A|[]]]. apply (H y); simpl; auto. now subst.
Qed.
Lemma firsts_none l : forall seen, (forall x, In x l -> In x seen) -> firsts seen l = [].
Proof. induction l as [|x l IH]; intros seen H; simpl; auto. destruct (existsb (String.eqb x) seen) eqn:E. apply IH. intros; apply H; now right. apply existsb_str_not in E. elim E. apply H. now left. Qed.
Lemma tidy_names E f : tidy E f -> exists k, firsts [] (f_hdr f) = (E ++ (if k =? 0 then [] else ["NONE"%string]))%list /\ f_hdr f = (E ++ repeat "NONE"%string k)%list.
Proof.
  intros ((k & Hk) & ND & NN & _). exists k. split; auto. rewrite Hk, firsts_app, (firsts_id E []) by auto. simpl. f_equal.
  destruct k; [reflexivity|]. cbn [repeat firsts Nat.eqb]. destruct (existsb (String.eqb "NONE") E) eqn:X. { apply existsb_str in X. contradiction. }
  rewrite firsts_none; auto. intros x I. apply repeat_spec in I. subst. apply in_app_iff. right. now left.
Qed.
Lemma tidy_cols E f : tidy E f -> forall i, i < length (firsts [] (f_hdr f)) -> exists c, tfind (field i) (f_cols f) = Some c /\ length c = f_rows f.
Proof.
  intros T i Hi. destruct (tidy_names E f T) as (k & F & H). destruct T as (_ & _ & _ & C & L).
  destruct (tfind (field i) (f_cols f)) as [c|] eqn:X; [eauto|]. elim (C i); auto. rewrite H, app_length, repeat_length. rewrite F, app_length in Hi. destruct k; simpl in Hi; lia.
Qed.
Lemma lower_not_N c : lower_char c <> "N"%char.
Proof. destruct c as [[] [] [] [] [] [] [] []]; vm_compute; discriminate. Qed.
Lemma lower_not_none s : toLower s <> "NONE"%string.
Proof. destruct s as [|c s]; simpl; [discriminate|]. intros [= H _]. now apply lower_not_N in H. Qed.
(** Reading a tidy file. *)
Lemma tidy_row E f r : tidy E f -> r < f_rows f -> exists e, read_row f r = Ok e /\ (forall j c, nth_error E j = Some c -> tfind c e = Some [cell f r j]) /\
  forall c, ~ In c E -> c <> "NONE"%string -> tfind c e = None.
Proof.
  intros T Hr. destruct (read_row_ok f r (tidy_cols E f T) Hr) as (e & A & B & C). exists e. split; auto. destruct (tidy_names E f T) as (k & F & H). split.
  - intros j c Hj. apply B. rewrite F. rewrite nth_error_app1; auto. apply nth_error_Some. congruence.
  - intros c N1 N2. apply C. rewrite H, in_app_iff. intros [I|I]; auto. apply repeat_spec in I. contradiction.
Qed.
Lemma tidy_response E f r irf src j : tidy E f -> r < f_rows f -> nth_error E j = Some (diffuseSrcName irf src) -> read_response irf f r src = Ok (cell f r j).
Proof. intros T Hr H. destruct (tidy_row E f r T Hr) as (e & A & B & _). unfold read_response. rewrite A. cbn [obind]. unfold diffuseResponse. rewrite (B _ _ H). reflexivity. Qed.
Lemma read_events_ok E f : tidy E f -> exists es, read_events f = Ok es /\ length es = f_rows f /\ forall r, r < f_rows f -> exists e, nth_error es r = Some e /\ read_row f r = Ok e.
Proof.
  intros T. unfold read_events.
  assert (G : forall n l, n <= f_rows f -> exists es, mfold (fun l r => obind (read_row f r) (fun e => Ok (l ++ [e])%list)) (seq (f_rows f - n) n) l = Ok es /\ length es = length l + n /\
              (forall r, r < length l -> nth_error es r = nth_error l r) /\ forall k, k < n -> exists e, nth_error es (length l + k) = Some e /\ read_row f (f_rows f - n + k) = Ok e).
  { induction n as [|n IH]; intros l Hn; cbn [seq mfold]. { exists l. split; auto. split; [lia|]. split; auto. intros; lia. }
    destruct (tidy_row E f (f_rows f - S n) T) as (e & A & _); [lia|]. rewrite A. cbn [obind]. replace (S (f_rows f - S n)) with (f_rows f - n) by lia.
    destruct (IH (l ++ [e])%list ltac:(lia)) as (es & P & Q & R & S). rewrite app_length in *. simpl length in *. exists es. split; auto. split; [lia|]. split.
    - intros r Hr. rewrite R by lia. now rewrite nth_error_app1.
    - intros [|k] Hk.
      + exists e. rewrite !Nat.add_0_r. split; auto. rewrite R by lia. rewrite nth_error_app2, Nat.sub_diag by lia. reflexivity.
      + destruct (S k ltac:(lia)) as (e' & X & Y). exists e'. split. now rewrite <- X; f_equal; lia. rewrite <- Y. f_equal. lia. }
  destruct (G (f_rows f) [] (Nat.le_refl _)) as (es & P & Q & _ & S). rewrite Nat.sub_diag in *. simpl in *. exists es. split; auto.
Qed.

(** ** What is computed for an event *)
Lemma compute_ok irf e srcs resp : NoDup (map (diffuseSrcName irf) srcs) ->
  (forall s, In s srcs -> tfind (diffuseSrcName irf s) e = None -> tfind (diffuseSrcName irf s) (computeResponseGQ irf e srcs resp) = Some [resp s]) /\
  (forall n, tfind n e <> None -> tfind n (computeResponseGQ irf e srcs resp) = tfind n e).
Proof.
  intros ND. unfold computeResponseGQ. cbv zeta.
  set (new := filter _ srcs).
  assert (NDn : NoDup (map (diffuseSrcName irf) new)).
  { unfold new. clear -ND. induction srcs as [|s l IH]; simpl in *; [constructor|]. inversion ND as [|? ? N1 N2]; subst. destruct (match tfind (diffuseSrcName irf s) e with None => true | Some _ => false end); simpl; auto. constructor; auto.
    intros I. apply N1. apply in_map_iff in I as (y & Y1 & Y2). apply filter_In in Y2 as [Y2 _]. rewrite <- Y1. now apply in_map. }
  assert (Hn : forall s, In s new <-> In s srcs /\ tfind (diffuseSrcName irf s) e = None).
  { intros s. unfold new. rewrite filter_In. destruct (tfind (diffuseSrcName irf s) e); intuition congruence. }
  assert (G : forall l e0, NoDup (map (diffuseSrcName irf) l) -> (forall s, In s l -> tfind (diffuseSrcName irf s) e0 = None) ->
     let e1 := fold_left (fun e s => let n := diffuseSrcName irf s in tset n (match tfind n e with None => [] | Some v => v end ++ [resp s])%list e) l e0 in
     (forall s, In s l -> tfind (diffuseSrcName irf s) e1 = Some [resp s]) /\ forall n, ~ In n (map (diffuseSrcName irf) l) -> tfind n e1 = tfind n e0).
  { clear. induction l as [|s l IH]; intros e0 ND H; simpl; [tauto|]. inversion ND as [|? ? N1 N2]; subst.
    assert (H0 : tfind (diffuseSrcName irf s) e0 = None) by (apply H; now left). rewrite H0. simpl app.
    destruct (IH (tset (diffuseSrcName irf s) [resp s] e0) N2) as [A B].
    { intros s' I. rewrite tfind_tset_neq. apply H; now right. intros E. apply N1. rewrite <- E. now apply in_map. }
    split.
    - intros s' [<-|I]; [|now apply A]. rewrite B by auto. apply tfind_tset_eq.
    - intros n N. rewrite B by tauto. apply tfind_tset_neq. intros ->. tauto. }
  destruct (G new e NDn) as [A B]. { intros s I. now apply Hn. } split.
  - intros s I F. apply A. now apply Hn.
  - intros n F. apply B. intros I. apply in_map_iff in I as (s & <- & I). apply Hn in I. tauto.
Qed.

(** ** Writing *)
Section Write.
Context (irf : string) (srcs : list string) (E : list string).
Notation nm := (diffuseSrcName irf).
Hypothesis ND : NoDup (map nm srcs).
Hypothesis NE : NoDup E.
Hypothesis NN : ~ In "NONE"%string E.
Definition all_names : list string := (E ++ firsts E (map nm srcs))%list.
Lemma all_nodup : NoDup all_names.
Proof.
  unfold all_names. pose proof (firsts_nodup (map nm srcs) E) as N2. assert (D : forall x, In x E -> ~ In x (firsts E (map nm srcs))) by (intros x I J; apply firsts_in in J; tauto).
  revert D N2. generalize (firsts E (map nm srcs)). clear -NE. induction NE as [|x l N1 N2 IH]; simpl; auto. intros l' D NL. constructor. rewrite in_app_iff. intros [A|A]; [tauto|]. apply (D x); auto. apply IH; auto.
Qed.
Lemma all_in s : In s srcs -> In (nm s) all_names.
Proof. intros I. unfold all_names. apply in_app_iff. destruct (in_dec string_dec (nm s) E); auto. right. apply firsts_in. split; auto. now apply in_map. Qed.
Lemma all_not_none : ~ In "NONE"%string all_names.
Proof. unfold all_names. rewrite in_app_iff. intros [A|A]; [auto|]. apply firsts_in in A as [A _]. apply in_map_iff in A as (s & A & _). now apply lower_not_none in A. Qed.
Definition good_names (d : drn) : Prop := dr_root d = "DIFRSP"%string /\ (dr_cols d = [] \/ dr_cols d = all_names).
Lemma readExisting_cols : forall l d, dr_cols (fold_left (fun d c => if String.eqb c "NONE" then d else addColumn d c) l d) = (dr_cols d ++ firsts (dr_cols d) (filter (fun c => negb (String.eqb c "NONE")) l))%list /\
  dr_root (fold_left (fun d c => if String.eqb c "NONE" then d else addColumn d c) l d) = dr_root d.
Proof.
  induction l as [|c l IH]; intros d; simpl. { now rewrite app_nil_r. } destruct (String.eqb c "NONE"); simpl; [apply IH|].
  destruct (IH (addColumn d c)) as [A B]. rewrite A, B, addColumn_root. split; auto. unfold addColumn. destruct (existsb (String.eqb c) (dr_cols d)); simpl; auto. now rewrite <- app_assoc.
Qed.
Lemma filter_tidy f : tidy E f -> filter (fun c => negb (String.eqb c "NONE")) (f_hdr f) = E.
Proof.
  intros ((k & ->) & _). rewrite filter_app. assert (A : forall l, ~ In "NONE"%string l -> filter (fun c => negb (String.eqb c "NONE")) l = l).
  { induction l as [|x l IH]; simpl; auto. intros N. destruct (String.eqb_spec x "NONE"); [subst; tauto|]. simpl. f_equal. tauto. }
  rewrite A by auto. replace (filter _ (repeat "NONE"%string k)) with (@nil string). apply app_nil_r. induction k; simpl; auto.
Qed.
Lemma readExisting_ok d f : good_names d -> tidy E f -> dr_root (readExisting d f) = "DIFRSP"%string /\ (dr_cols (readExisting d f) = E \/ dr_cols (readExisting d f) = all_names).
Proof.
  intros [R C] T. unfold readExisting. destruct (readExisting_cols (f_hdr f) d) as [A B]. rewrite A, B. split; auto. rewrite (filter_tidy f T). destruct C as [->| ->].
  - left. simpl. apply firsts_id; auto.
  - right. rewrite firsts_none. apply app_nil_r. intros x I. unfold all_names. apply in_app_iff. now left.
Qed.
(** Columns: nothing that was there is lost, and all the fields for the sources exist. *)
Definition kept (cols cols' : list (string * list R)) : Prop := forall k c, tfind k cols = Some c -> tfind k cols' = Some c.
Definition even_cols (n : nat) (cols : list (string * list R)) : Prop := forall k c, tfind k cols = Some c -> length c = n.
Lemma firsts_step d s l : (dr_cols (addColumn d s) ++ firsts (dr_cols (addColumn d s)) l)%list = (dr_cols d ++ firsts (dr_cols d) (s :: l))%list.
Proof. unfold addColumn. simpl firsts. destruct (existsb (String.eqb s) (dr_cols d)); auto. simpl. now rewrite <- app_assoc. Qed.
Lemma nodup_l {A} (l l' : list A) : NoDup (l ++ l') -> NoDup l.
Proof. induction l; simpl; intros H; [constructor|]. inversion H as [|? ? X1 X2]; subst. rewrite in_app_iff in X1. constructor; auto. Qed.
Lemma append_cols f : forall l d cols, dr_root d = "DIFRSP"%string -> NoDup (dr_cols d ++ firsts (dr_cols d) (map nm l)) -> even_cols (f_rows f) cols ->
  exists d' cols', mfold (fun dc s => let d := addColumn (fst dc) (nm s) in obind (dr_key d (nm s)) (fun field => Ok (d, match tfind field (snd dc) with Some _ => snd dc | None => (snd dc ++ [(field, repeat 0%R (f_rows f))])%list end))) l (d, cols) = Ok (d', cols') /\
    dr_root d' = "DIFRSP"%string /\ dr_cols d' = (dr_cols d ++ firsts (dr_cols d) (map nm l))%list /\ kept cols cols' /\ even_cols (f_rows f) cols' /\
    forall s i, In s l -> nth_error (dr_cols d') i = Some (nm s) -> tfind (field i) cols' <> None.
Proof.
  induction l as [|s l IH]; intros d cols R N V; cbn [mfold].
  { exists d, cols. split; auto. split; auto. split. now rewrite app_nil_r. split; [intros k c; auto|]. split; auto. }
  cbn [fst snd map]. cbn [map] in N. cbv zeta. rewrite <- (firsts_step d (nm s)) in *. set (d1 := addColumn d (nm s)) in *.
  assert (R1 : dr_root d1 = "DIFRSP"%string) by (unfold d1; now rewrite addColumn_root).
  pose proof (nodup_l _ _ N) as N1.
  assert (I1 : In (nm s) (dr_cols d1)). { unfold d1, addColumn. destruct (existsb (String.eqb (nm s)) (dr_cols d)) eqn:X. now apply existsb_str. simpl. apply in_app_iff. right. now left. }
  apply In_nth_error in I1 as (i & Hi). rewrite (key_nth d1 i _ R1 N1 Hi). cbn [obind].
  set (cols1 := match tfind (field i) cols with Some _ => cols | None => (cols ++ [(field i, repeat 0%R (f_rows f))])%list end).
  assert (K1 : kept cols cols1). { unfold cols1. intros k c H. destruct (tfind (field i) cols); auto. rewrite tfind_app, H. auto. }
  assert (V1 : even_cols (f_rows f) cols1).
  { intros k c H. unfold cols1 in H. destruct (tfind (field i) cols) eqn:X; [eapply V; eauto|]. rewrite tfind_app in H. destruct (tfind k cols) eqn:Y; [injection H as <-; eapply V; eauto|]. simpl in H. destruct (String.eqb k (field i)); [|discriminate]. injection H as <-. apply repeat_length. }
  assert (H1 : exists c, tfind (field i) cols1 = Some c). { unfold cols1. destruct (tfind (field i) cols) eqn:X; [eauto|]. rewrite tfind_app, X. simpl. rewrite String.eqb_refl. eauto. }
  destruct (IH d1 cols1 R1 N V1) as (d' & cols' & P & Q1 & Q2 & Q3 & Q4 & Q5).
  exists d', cols'. split; [exact P|]. split; auto. split; auto. split. { intros k c H. apply Q3. now apply K1. } split; auto.
  intros s' j [<-|I] Hj; [|eapply Q5; eauto]. destruct H1 as (c & Hc). assert (j = i) as ->. { rewrite Q2 in Hj. rewrite NoDup_nth_error in N. apply N. apply nth_error_Some; congruence. rewrite Hj. rewrite nth_error_app1; auto. apply nth_error_Some. congruence. }
  rewrite (Q3 _ _ Hc). discriminate.
Qed.
Lemma append_ok f : tidy E f -> forall d, dr_root d = "DIFRSP"%string -> (dr_cols d = E \/ dr_cols d = all_names) ->
  exists d' cols, append_columns irf srcs d f = Ok (d', cols) /\ dr_root d' = "DIFRSP"%string /\ dr_cols d' = all_names /\ kept (f_cols f) cols /\ even_cols (f_rows f) cols /\
    (forall i, i < length all_names -> tfind (field i) cols <> None).
Proof.
  intros T d R C. unfold append_columns. pose proof T as (_ & _ & _ & TC & TV).
  assert (A : (dr_cols d ++ firsts (dr_cols d) (map nm srcs))%list = all_names).
  { destruct C as [-> | ->]; auto. rewrite firsts_none. apply app_nil_r. intros x I. apply in_map_iff in I as (s & <- & I). now apply all_in. }
  destruct (append_cols f srcs d (f_cols f) R) as (d' & cols & P & Q1 & Q2 & Q3 & Q4 & Q5); [rewrite A; apply all_nodup|exact TV|].
  exists d', cols. split; [exact P|]. rewrite A in Q2. repeat (split; auto). intros i Hi.
  destruct (Nat.lt_ge_cases i (length E)) as [L|L].
  - destruct (tidy_cols E f T i) as (c & F & _). { destruct (tidy_names E f T) as (k & -> & _). rewrite app_length. lia. } rewrite (Q3 _ _ F). discriminate.
  - destruct (nth_error all_names i) as [c|] eqn:X; [|apply nth_error_None in X; lia]. pose proof X as X'. unfold all_names in X. rewrite nth_error_app2 in X by auto. apply nth_error_In, firsts_in in X as [X _]. apply in_map_iff in X as (s & <- & I). apply (Q5 s i); auto. now rewrite Q2.
Qed.
(** One row: the responses of [e] are in row [r], other rows and columns are as before. *)
Definition at_cell (cols : list (string * list R)) (i r : nat) : R := match tfind (field i) cols with Some c => nth r c 0%R | None => 0%R end.
Lemma write_row_ok d n r (e : eresp) : dr_root d = "DIFRSP"%string -> dr_cols d = all_names -> r < n -> forall l cols,
  (forall s, In s l -> In s srcs) -> even_cols n cols -> (forall i, i < length all_names -> tfind (field i) cols <> None) -> (forall s, In s l -> exists v, tfind (nm s) e = Some [v]) ->
  exists cols', write_row irf l d cols (r, e) = Ok cols' /\ even_cols n cols' /\ (forall k, tfind k cols <> None -> tfind k cols' <> None) /\
    (forall i s v, In s l -> nth_error all_names i = Some (nm s) -> tfind (nm s) e = Some [v] -> at_cell cols' i r = v) /\
    (forall i r', r' <> r \/ (forall s, In s l -> nth_error all_names i <> Some (nm s)) -> at_cell cols' i r' = at_cell cols i r').
Proof.
  intros Rd Cd Hr. unfold write_row. induction l as [|s l IH]; intros cols HI V X He; cbn [mfold].
  { exists cols. split; auto. split; auto. split; auto. split; [intros i s v []|]. auto. }
  cbn [fst snd]. assert (Is : In (nm s) all_names) by (apply all_in, HI; now left). apply In_nth_error in Is as (i & Hi).
  rewrite (key_nth d i _ Rd) by (rewrite Cd; auto using all_nodup). cbn [obind]. destruct (He s) as (v & Hv); [now left|]. unfold diffuseResponse. rewrite Hv. cbn [vec_get nth_error obind].
  assert (Hil : i < length all_names) by (apply nth_error_Some; congruence).
  destruct (tfind (field i) cols) as [c|] eqn:F; [|elim (X i Hil F)]. rewrite vec_set_ok by (rewrite (V _ _ F); auto). cbn [obind].
  set (cols1 := tset (field i) (upd c r v) cols).
  assert (V1 : even_cols n cols1). { intros k c' H. unfold cols1 in H. destruct (string_dec k (field i)) as [->|N]. rewrite tfind_tset_eq in H. injection H as <-. rewrite upd_length. eapply V; eauto. rewrite tfind_tset_neq in H by auto. eapply V; eauto. }
  assert (X1 : forall k, tfind k cols <> None -> tfind k cols1 <> None). { intros k H. unfold cols1. destruct (string_dec k (field i)) as [->|N]. rewrite tfind_tset_eq. discriminate. now rewrite tfind_tset_neq. }
  destruct (IH cols1) as (cols' & P & Q1 & Q2 & Q3 & Q4); auto. { intros; apply HI; now right. } { intros; apply He; now right. }
  exists cols'. split; [exact P|]. split; auto. split; auto. split.
  - intros j s' v' [<-|I] Hj Hv'; [|eapply Q3; eauto]. assert (j = i) as ->. { pose proof all_nodup as Y. rewrite NoDup_nth_error in Y. apply Y. apply nth_error_Some; congruence. congruence. }
    assert (v' = v) as -> by congruence.
    destruct (in_dec string_dec (nm s) (map nm l)) as [I|I].
    + apply in_map_iff in I as (s' & Es & I). apply (Q3 i s'); congruence.
    + rewrite Q4. unfold at_cell, cols1. rewrite tfind_tset_eq, nth_upd_eq; auto. rewrite (V _ _ F); auto. right. intros s' I' Y. apply I. rewrite Hj in Y. injection Y as Y. rewrite Y. now apply in_map.
  - intros j r' H. rewrite Q4. 2: { destruct H as [H|H]; auto. right. intros s' I. apply H. now right. }
    unfold at_cell, cols1. destruct (Nat.eq_dec j i) as [->|N].
    + rewrite tfind_tset_eq, F. destruct H as [H|H]. now rewrite nth_upd_neq by auto. elim (H s); simpl; auto.
    + rewrite tfind_tset_neq; auto. intros Y. now apply field_inj in Y.
Qed.

Definition is_src (i : nat) : Prop := exists s, In s srcs /\ nth_error all_names i = Some (nm s).
Lemma write_rows_ok d n : dr_root d = "DIFRSP"%string -> dr_cols d = all_names -> forall (es : list eresp) k cols, k + length es <= n ->
  even_cols n cols -> (forall i, i < length all_names -> tfind (field i) cols <> None) -> (forall e s, In e es -> In s srcs -> exists v, tfind (nm s) e = Some [v]) ->
  exists cols', mfold (write_row irf srcs d) (combine (seq k (length es)) es) cols = Ok cols' /\ even_cols n cols' /\ (forall k, tfind k cols <> None -> tfind k cols' <> None) /\
    (forall i s j e v, In s srcs -> nth_error all_names i = Some (nm s) -> nth_error es j = Some e -> tfind (nm s) e = Some [v] -> at_cell cols' i (k + j) = v) /\
    (forall i r, r < k \/ ~ is_src i -> at_cell cols' i r = at_cell cols i r).
Proof.
  intros Rd Cd. induction es as [|e es IH]; intros k cols Hk V X He; cbn [length seq combine mfold].
  { exists cols. split; auto. split; auto. split; auto. split; auto. intros i s [|j]; discriminate. }
  simpl length in Hk. destruct (write_row_ok d n k e Rd Cd ltac:(lia) srcs cols) as (cols1 & P & Q1 & Q2 & Q3 & Q4); auto. { intros s I. apply He; auto. now left. }
  rewrite P. cbn [obind]. destruct (IH (S k) cols1) as (cols' & P' & S1 & S2 & S3 & S4); auto; [lia|intros; apply He; auto; now right|].
  exists cols'. split; [exact P'|]. split; auto. split; auto. split.
  - intros i s [|j] e' v I Hi Hj Hv; simpl in Hj.
    + injection Hj as <-. rewrite Nat.add_0_r. rewrite S4 by (left; lia). eapply Q3; eauto.
    + replace (k + S j) with (S k + j) by lia. eapply S3; eauto.
  - intros i r H. rewrite S4. 2: { destruct H; [left; lia|auto]. } apply Q4. destruct H as [H|H]; [left; lia|right]. intros s I Hs. apply H. exists s. auto.
Qed.
Hypothesis NA : forall s, In s srcs -> ~ In (altName irf s) E.
Hypothesis NS : srcs <> [].
(** What a file is like afterwards. *)
Definition done_file (resp : nat -> string -> R) (f f' : ft1) : Prop :=
  f_rows f' = f_rows f /\ (forall r src, r < f_rows f -> In (nm src) E -> read_response irf f' r src = read_response irf f r src) /\
  (forall r s, r < f_rows f -> In s srcs -> ~ In (nm s) E -> read_response irf f' r s = Ok (resp r s)).
Lemma skip_ok f : tidy E f -> haveDiffuseColumns irf srcs f = true -> forall s, In s srcs -> In (nm s) E.
Proof.
  intros T H s I. unfold haveDiffuseColumns in H. rewrite forallb_forall in H. specialize (H s I). destruct T as ((k & Hk) & _). rewrite Hk in H. apply orb_true_iff in H as [H|H]; apply existsb_str in H; apply in_app_iff in H as [H|H]; auto.
  - apply repeat_spec in H. now apply lower_not_none in H.
  - elim (NA s I H).
  - apply repeat_spec in H. now apply lower_not_none in H.
Qed.
Lemma nth_hdr_tidy (hdr : list string) k : hdr = (E ++ repeat "NONE"%string k)%list -> forall nd,
  let n := length all_names in let nkeys := if nd <? n then n else length hdr in (nd = length hdr \/ nd = 0) ->
  exists k', firstn nkeys (all_names ++ skipn n hdr)%list = (all_names ++ repeat "NONE"%string k')%list /\ length all_names + k' <= Nat.max n (length hdr).
Proof.
  intros Hk nd n nkeys Hd. unfold nkeys. destruct (nd <? n) eqn:L.
  - exists 0. unfold n. rewrite firstn_app, Nat.sub_diag, firstn_all. simpl. split; auto. fold n. lia.
  - apply Nat.ltb_ge in L. assert (Le : length E <= n) by (unfold n, all_names; rewrite app_length; lia).
    destruct Hd as [Hd|Hd].
    + exists (k - (n - length E)). assert (Lh : length hdr = length E + k) by (rewrite Hk, app_length, repeat_length; auto).
      replace (skipn n hdr) with (repeat "NONE"%string (k - (n - length E))).
      * rewrite firstn_all2. split; auto. fold n. lia. rewrite app_length, repeat_length. fold n. lia.
      * rewrite Hk, skipn_app, (skipn_all2 E) by auto. simpl. generalize (n - length E). intros m. revert m. clear. induction k; intros [|m]; simpl; auto.
    + exfalso. subst nd. assert (n = 0) as Z by lia. unfold n in Z. destruct srcs as [|s l] eqn:Q; [now elim NS|]. apply length_zero_iff_nil in Z. pose proof (all_in s) as Y. rewrite Z in Y. apply Y. rewrite Q. now left.
Qed.
Lemma process_ok clobber resp d f : good_names d -> tidy E f -> exists d' f', process irf srcs clobber resp d f = Ok (d', f') /\ good_names d' /\ done_file resp f f'.
Proof.
  intros G T. unfold process. destruct (negb clobber && haveDiffuseColumns irf srcs f) eqn:Skip.
  { apply andb_true_iff in Skip as [_ Skip]. exists d, f. split; auto. split; auto. split; auto. split; auto. intros r s _ I N. elim N. eapply skip_ok; eauto. }
  clear Skip. destruct (read_events_ok E f T) as (es0 & P0 & L0 & Es). rewrite P0. cbn [obind].
  set (es := map _ (combine (seq 0 (f_rows f)) es0)).
  assert (Les : length es = f_rows f). { unfold es. rewrite map_length, combine_length, seq_length. lia. }
  assert (Hes : forall r, r < f_rows f -> exists e, read_row f r = Ok e /\ nth_error es r = Some (computeResponseGQ irf e srcs (resp r))).
  { intros r Hr. destruct (Es r Hr) as (e & A & B). exists e. split; auto. unfold es. apply map_nth_error with (f := fun re => computeResponseGQ irf (snd re) srcs (resp (fst re))) (d := (r, e)).
    assert (Z : forall (l : list eresp) k r e, nth_error l r = Some e -> nth_error (combine (seq k (length l)) l) r = Some (k + r, e)).
    { clear. induction l as [|x l IH]; intros k [|r] e H; simpl in *; try discriminate. injection H as <-. now rewrite Nat.add_0_r. rewrite (IH (S k) r e H). do 2 f_equal. lia. }
    rewrite <- L0. rewrite (Z es0 0 r e A). reflexivity. }
  unfold writeEventResponses. destruct (length srcs =? 0) eqn:Z0. { apply Nat.eqb_eq, length_zero_iff_nil in Z0. contradiction. } clear Z0.
  destruct (readExisting_ok d f G T) as [R1 C1]. destruct (append_ok f T _ R1 C1) as (d' & cols & P1 & R2 & C2 & K & V & X). rewrite P1. cbn [obind fst snd].
  assert (Hv : forall r s, r < f_rows f -> In s srcs -> exists e v, nth_error es r = Some e /\ tfind (nm s) e = Some [v] /\
              (forall j, nth_error E j = Some (nm s) -> v = cell f r j) /\ (~ In (nm s) E -> v = resp r s)).
  { intros r s Hr I. destruct (Hes r Hr) as (e & A & B). destruct (tidy_row E f r T Hr) as (e' & A' & T1 & T2). rewrite A in A'. injection A' as <-. destruct (compute_ok irf e srcs (resp r) ND) as [D1 D2].
    exists (computeResponseGQ irf e srcs (resp r)). destruct (in_dec string_dec (nm s) E) as [Ie|Ne].
    - apply In_nth_error in Ie as (j & Hj). exists (cell f r j). split; auto. split. rewrite D2. now apply T1. rewrite (T1 _ _ Hj). discriminate. split; [|intros Q; elim Q; eapply nth_error_In; eauto].
      intros j' Hj'. f_equal. rewrite NoDup_nth_error in NE. apply NE. apply nth_error_Some; congruence. congruence.
    - exists (resp r s). split; auto. split. apply D1; auto. apply T2; auto. apply lower_not_none. split; auto. intros j Hj. elim Ne. eapply nth_error_In; eauto. }
  destruct (write_rows_ok d' (f_rows f) R2 C2 es 0 cols) as (cols' & P2 & V2 & X2 & W1 & W2); [exact (Nat.eq_le_incl _ _ Les)|exact V|exact X| |].
  { intros e s Ie I. apply In_nth_error in Ie as (r & Hr). assert (Hr' : r < f_rows f) by (rewrite <- Les; apply nth_error_Some; congruence). destruct (Hv r s Hr' I) as (e' & v & A & B & _). assert (e' = e) as -> by congruence. eauto. }
  rewrite Les in P2. rewrite P2. cbn [obind]. eexists d', _. split; [reflexivity|]. split; [split; auto|]. rewrite C2.
  destruct (tidy_names E f T) as (k & _ & Hk). destruct (nth_hdr_tidy (f_hdr f) k Hk (if clobber then 0 else length (f_hdr f))) as (k' & Hh & Lh). { destruct clobber; auto. }
  cbv zeta in Hh. rewrite Hh. set (f' := mk_ft1 _ _ _).
  assert (T' : tidy all_names f').
  { split. now exists k'. split. apply all_nodup. split. apply all_not_none. split; [|exact V2]. simpl f_hdr. simpl f_cols. intros i Hi. rewrite app_length, repeat_length in Hi. destruct (Nat.lt_ge_cases i (length all_names)) as [L|L]. now apply X2, X.
    destruct T as (_ & _ & _ & TC & _). specialize (TC i ltac:(lia)). apply X2. change (tfind (field i) cols <> None). change (tfind (field i) (f_cols f) <> None) in TC. destruct (tfind (field i) (f_cols f)) as [c|] eqn:Y. rewrite (K _ _ Y). discriminate. now elim TC. }
  assert (Cell : forall r i, cell f' r i = at_cell cols' i r) by reflexivity.
  split; auto. split.
  - intros r src Hr I. apply In_nth_error in I as (j & Hj). assert (Hj' : nth_error all_names j = Some (nm src)). { unfold all_names. rewrite nth_error_app1; auto. apply nth_error_Some. congruence. }
    rewrite (tidy_response all_names f' r irf src j T' Hr Hj'), (tidy_response E f r irf src j T Hr Hj). f_equal. rewrite Cell.
    destruct (in_dec string_dec (nm src) (map nm srcs)) as [Y|Y].
    + apply in_map_iff in Y as (s & Es' & Y). destruct (Hv r s Hr Y) as (e & v & B1 & B2 & B3 & _). rewrite <- (B3 j) by congruence. change r with (0 + r). eapply W1; eauto. congruence.
    + rewrite W2. 2: { right. intros (s & I & Q). apply Y. rewrite Hj' in Q. injection Q as ->. now apply in_map. }
      unfold at_cell, cell. destruct (tidy_cols E f T j) as (c & F & _). { destruct (tidy_names E f T) as (k0 & -> & _). rewrite app_length. assert (j < length E) by (apply nth_error_Some; congruence). lia. } now rewrite F, (K _ _ F).
  - intros r s Hr I N. pose proof (all_in s I) as Y. apply In_nth_error in Y as (j & Hj). rewrite (tidy_response all_names f' r irf s j T' Hr Hj). f_equal. rewrite Cell.
    destruct (Hv r s Hr I) as (e & v & B1 & B2 & _ & B4). rewrite <- (B4 N). change r with (0 + r). eapply W1; eauto.
Qed.
Lemma run_ok clobber : forall fs d, good_names d -> (forall fr, In fr fs -> tidy E (fst fr)) ->
  exists out, gtdiffrsp irf srcs clobber d fs = Ok out /\ length out = length fs /\
    forall k f resp, nth_error fs k = Some (f, resp) -> exists f', nth_error out k = Some f' /\ done_file resp f f'.
Proof.
  induction fs as [|[f resp] fs IH]; intros d G T; cbn [gtdiffrsp]. { exists []. split; auto. split; auto. intros [|k]; discriminate. }
  destruct (process_ok clobber resp d f G) as (d' & f' & P & G' & D). { apply (T (f, resp)). now left. } rewrite P. cbn [obind fst snd].
  destruct (IH d' G') as (out & Q & L & H). { intros; apply T; now right. } rewrite Q. cbn [obind]. exists (f' :: out). split; auto. split; [simpl; lia|].
  intros [|k] f0 r0 Hk; simpl in *. injection Hk as <- <-. eauto. eauto.
Qed.
End Write.

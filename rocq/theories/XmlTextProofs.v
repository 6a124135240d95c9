(** The reader gives back what the builders write. *)
From Verif Require Import Base XmlText XmlModel XmlSpec.
From Coq Require Import String Ascii.
Local Open Scope string_scope.
Local Open Scope list_scope.
Local Open Scope nat_scope.

Lemma plain_all l :
  (fix all (l : list node) : Prop := match l with [] => True | n :: l => plain n /\ all l end) l
  <-> List.Forall plain l.
Proof.
  induction l as [|n l IH]; [split; constructor|]. split.
  - intros [H1 H2]. constructor; [auto|now apply IH].
  - intros H. inversion H; subst. split; [auto|now apply IH].
Qed.
Lemma plain_node t a k :
  plain (Node t a k) <->
  name_ok t /\ List.Forall (fun x => name_ok (fst x) /\ text_ok (snd x)) a /\ List.Forall plain k.
Proof. simpl. rewrite plain_all. reflexivity. Qed.

Lemma app_s_assoc a b c : (a +++ b) +++ c = a +++ b +++ c.
Proof. induction a as [|x a IH]; simpl; [reflexivity|now rewrite IH]. Qed.
Lemma len_app a b : String.length (a +++ b) = String.length a + String.length b.
Proof. induction a as [|x a IH]; simpl; [reflexivity|now rewrite IH]. Qed.
Lemma app_s_nil a : a +++ "" = a.
Proof. induction a as [|x a IH]; simpl; [reflexivity|now rewrite IH]. Qed.

Lemma name_char_ends c : name_char c = true -> ends_name c = false.
Proof. destruct c as [[] [] [] [] [] [] [] []]; vm_compute; intros H; congruence. Qed.
Lemma ends_ws c : ends_name c = false -> is_ws c = false.
Proof. unfold ends_name. destruct (is_ws c); simpl; congruence. Qed.
Lemma ends_parts c :
  ends_name c = false -> (c =? "/")%char = false /\ (c =? ">")%char = false /\ (c =? "=")%char = false.
Proof.
  unfold ends_name. destruct (is_ws c), (c =? "/")%char, (c =? ">")%char, (c =? "=")%char; simpl; try congruence; auto.
Qed.

Lemma skip_ws_spaces n s : skip_ws (spaces n +++ s) = skip_ws s.
Proof. induction n as [|n IH]; simpl; auto. Qed.
Lemma skip_ws_newline s : skip_ws (newline +++ s) = skip_ws s.
Proof. reflexivity. Qed.
Lemma skip_ws_idem s : skip_ws (skip_ws s) = skip_ws s.
Proof. induction s as [|c s IH]; simpl; auto. destruct (is_ws c) eqn:E; simpl; [auto|now rewrite E]. Qed.

Lemma take_name_ok n c r :
  all_chars name_char n = true -> ends_name c = true -> take_name (n +++ String c r) = (n, String c r).
Proof.
  intros H1 H2. induction n as [|x n IH]; simpl in *; [now rewrite H2|].
  apply andb_prop in H1 as [H1 H3]. rewrite (name_char_ends x H1), (IH H3). reflexivity.
Qed.
Lemma take_until_ok q v r :
  all_chars (fun c => negb (c =? q)%char) v = true -> take_until q (v +++ String q r) = Some (v, r).
Proof.
  intros H. induction v as [|x v IH]; simpl in *; [now rewrite Ascii.eqb_refl|].
  apply andb_prop in H as [H1 H2]. destruct (x =? q)%char; [discriminate|]. rewrite (IH H2). reflexivity.
Qed.
Lemma all_chars_impl (P Q : ascii -> bool) s :
  (forall c, P c = true -> Q c = true) -> all_chars P s = true -> all_chars Q s = true.
Proof.
  intros H. induction s as [|x s IH]; simpl; auto. intros E. apply andb_prop in E as [E1 E2].
  rewrite (H _ E1), (IH E2). reflexivity.
Qed.
Lemma expand_cons c r : (c =? "&")%char = false -> expand (String c r) = String c (expand r).
Proof. destruct c as [[] [] [] [] [] [] [] []]; try reflexivity. vm_compute. discriminate. Qed.
Lemma expand_ok v : text_ok v -> expand v = v.
Proof.
  unfold text_ok. induction v as [|x v IH]; intros H; [reflexivity|]. cbn [all_chars] in H.
  apply andb_prop in H as [H1 H2]. unfold text_char in H1. apply andb_prop in H1 as [_ H1].
  rewrite expand_cons; [now rewrite (IH H2)|]. destruct (x =? "&")%char; [discriminate|reflexivity].
Qed.

Lemma skip_ws_name n r : name_ok n -> skip_ws (n +++ r) = n +++ r.
Proof.
  intros [H1 H2]. destruct n as [|x n]; [congruence|]. simpl in *. apply andb_prop in H2 as [H2 _].
  rewrite (ends_ws _ (name_char_ends _ H2)). reflexivity.
Qed.

(** What may follow the attributes. *)
Definition tag_end (s : string) : Prop := exists r, s = "/>" +++ r \/ s = ">" +++ r.

Lemma parse_attrs_ok a : forall fuel r,
  List.Forall (fun x => name_ok (fst x) /\ text_ok (snd x)) a -> tag_end r ->
  List.length a < fuel ->
  parse_attrs fuel (concat_s (map print_attr a) +++ r) = Some (a, r).
Proof.
  induction a as [|[n v] a IH]; intros fuel r HF HR HL; destruct fuel as [|fuel]; try (simpl in HL; lia).
  - destruct HR as [r' [->| ->]]; reflexivity.
  - inversion HF as [|x l [Hn Hv] HF']; subst. cbn [fst snd] in Hn, Hv. simpl in HL.
    cbn [map concat_s]. unfold print_attr at 1. cbn [fst snd].
    rewrite !app_s_assoc. cbn [String.append].
    cbn [parse_attrs]. cbn [skip_ws]. change (is_ws " ") with true. cbv iota.
    rewrite (skip_ws_name n _ Hn).
    assert (Hn' := Hn). destruct Hn' as [Hn1 Hn2]. destruct n as [|x n]; [congruence|].
    cbn [String.append].
    assert (Hx : name_char x = true) by (cbn [all_chars] in Hn2; apply andb_prop in Hn2; tauto).
    destruct (ends_parts _ (name_char_ends _ Hx)) as (E1 & E2 & E3). rewrite E1, E2. cbn [orb].
    pose proof (take_name_ok (String x n) "="%char
      (String quote ((v +++ String quote "") +++ concat_s (map print_attr a) +++ r)) Hn2 eq_refl) as T.
    cbn [String.append] in T. rewrite T. clear T.
    cbn [skip_ws]. change (is_ws "=") with false. cbv iota. change (("=" =? "=")%char) with true. cbv iota.
    cbn [skip_ws]. change (is_ws quote) with false. cbv iota. change ((quote =? quote)%char) with true. cbn [orb].
    rewrite app_s_assoc. cbn [String.append].
    rewrite take_until_ok.
    + rewrite IH by (auto; lia). rewrite (expand_ok _ Hv). reflexivity.
    + eapply all_chars_impl; [|exact Hv]. unfold text_char, quote. intros c Hc. apply andb_prop in Hc. tauto.
Qed.

(** What may follow a list of siblings: white space and then nothing or a closing tag. *)
Definition siblings_end (r : string) : Prop :=
  skip_ws r = "" \/ exists t, skip_ws r = "</" +++ t.

Lemma attrs_len a : List.length a <= String.length (concat_s (map print_attr a)).
Proof.
  induction a as [|[n v] a IH]; [simpl; lia|]. cbn [map concat_s List.length]. rewrite len_app.
  replace (String.length (print_attr (n, v))) with (S (String.length (n +++ "=" +++ String quote (v +++ String quote "")))) by reflexivity. lia.
Qed.
Lemma name_take_until t r : name_ok t -> take_until ">" (t +++ String ">" r) = Some (t, r).
Proof.
  intros [_ H]. apply take_until_ok. eapply all_chars_impl; [|exact H]. intros c Hc.
  destruct (ends_parts _ (name_char_ends _ Hc)) as (_ & E & _). rewrite E. reflexivity.
Qed.

Lemma concat_s_cons s l : concat_s (s :: l) = s +++ concat_s l.
Proof. reflexivity. Qed.

Lemma take_name_attrs t a r :
  name_ok t -> tag_end r ->
  take_name (t +++ concat_s (map print_attr a) +++ r) = (t, concat_s (map print_attr a) +++ r).
Proof.
  intros [_ Ht] HR. destruct a as [|[n v] a].
  - cbn [map concat_s String.append]. destruct HR as [r' [->| ->]]; cbn [String.append]; now apply take_name_ok.
  - cbn [map concat_s]. unfold print_attr at 1 3. cbn [String.append]. now apply take_name_ok.
Qed.

Lemma parse_nodes_ok : forall fuel indent l r,
  List.Forall plain l -> siblings_end r ->
  String.length (concat_s (map (prettyPrint indent) l) +++ r) < fuel ->
  parse_nodes fuel (concat_s (map (prettyPrint indent) l) +++ r) = Some (l, skip_ws r).
Proof.
  induction fuel as [|fuel IH]; intros indent l r HF HR HL; [lia|].
  destruct l as [|[t a k] l].
  - cbn [map concat_s String.append parse_nodes]. destruct HR as [E|[u E]]; rewrite E; reflexivity.
  - inversion HF as [|x y Hp HF']; subst. apply plain_node in Hp as (Ht & Ha & Hk).
    revert HL. cbn [map]. rewrite concat_s_cons. cbn [prettyPrint]. rewrite !app_s_assoc.
    set (tl := concat_s (map (prettyPrint indent) l) +++ r).
    set (body := match k with [] => "/>" +++ newline | _ => _ end).
    intros HL.
    assert (HB : tag_end (body +++ tl)).
    { unfold body. destruct k; [exists (newline +++ tl); left; now rewrite app_s_assoc|].
      eexists. right. rewrite app_s_assoc. reflexivity. }
    cbn [parse_nodes]. rewrite skip_ws_spaces. cbn [String.append].
    rewrite len_app in HL. cbn [String.append String.length] in HL. rewrite !len_app in HL.
    cbn [skip_ws]. change (is_ws "<") with false. cbv iota. change (("<" =? "<")%char) with true. cbn [negb].
    assert (Hst : starts "/" (t +++ concat_s (map print_attr a) +++ body +++ tl) = None).
    { destruct Ht as [H1 H2]. destruct t as [|x t]; [congruence|]. cbn [all_chars] in H2. apply andb_prop in H2 as [H2 _].
      destruct (ends_parts _ (name_char_ends _ H2)) as (E & _). cbn [String.append starts]. rewrite Ascii.eqb_sym, E. reflexivity. }
    rewrite Hst. rewrite take_name_attrs by auto.
    rewrite parse_attrs_ok; auto.
    2:{ pose proof (attrs_len a). lia. }
    assert (Hbl : String.length body + String.length tl < fuel) by lia. clear HL Hst.
    assert (M : forall (A : Type) (X : option A), match t with "" => None | String _ _ => X end = X).
    { intros A X. destruct Ht as [Ht _]. destruct t; [congruence|reflexivity]. }
    rewrite M. clear M.
    unfold body in *. destruct k as [|k0 k].
    + rewrite app_s_assoc. cbn [String.append starts]. change (("/" =? "/")%char) with true. change ((">" =? ">")%char) with true. cbv iota.
      replace (parse_nodes fuel (newline +++ tl)) with (parse_nodes fuel tl).
      * unfold tl. rewrite IH; auto. unfold tl in Hbl. cbn [String.append String.length] in Hbl. lia.
      * destruct fuel; [lia|]. cbn [parse_nodes]. rewrite skip_ws_newline. reflexivity.
    + set (ks := k0 :: k) in *. clearbody ks. clear k0 k.
      set (after := spaces (2 * indent) +++ "</" +++ t +++ ">" +++ newline +++ tl).
      assert (Eb : (">" +++ newline +++ concat_s (map (prettyPrint (S indent)) ks) +++
                    spaces (2 * indent) +++ "</" +++ t +++ ">" +++ newline) +++ tl
                   = String ">" (newline +++ (concat_s (map (prettyPrint (S indent)) ks) +++ after))).
      { unfold after. rewrite !app_s_assoc. reflexivity. }
      rewrite <- len_app in Hbl. rewrite Eb in *. cbn [String.append] in Hbl. cbn [String.append].
      cbn [starts]. change ((">" =? ">")%char) with true. change (("/" =? ">")%char) with false. cbv iota.
      replace (parse_nodes fuel (newline +++ (concat_s (map (prettyPrint (S indent)) ks) +++ after)))
        with (parse_nodes fuel (concat_s (map (prettyPrint (S indent)) ks) +++ after)).
      2:{ destruct fuel; [lia|]. cbn [parse_nodes]. rewrite skip_ws_newline. reflexivity. }
      assert (Eafter : skip_ws after = "</" +++ t +++ String ">" (newline +++ tl)).
      { unfold after. rewrite skip_ws_spaces. reflexivity. }
      cbn [newline String.append String.length] in Hbl.
      rewrite IH; auto.
      2:{ right. exists (t +++ String ">" (newline +++ tl)). exact Eafter. }
      2:{ lia. }
      rewrite Eafter. cbn [String.append starts]. change (("<" =? "<")%char) with true. change (("/" =? "/")%char) with true. cbv iota.
      rewrite name_take_until by auto.
      change (String "010" tl) with (newline +++ tl).
      replace (parse_nodes fuel (newline +++ tl)) with (parse_nodes fuel tl).
      2:{ destruct fuel; [lia|]. cbn [parse_nodes]. rewrite skip_ws_newline. reflexivity. }
      unfold tl. rewrite IH; auto.
      unfold after in Hbl. fold tl. clearbody tl. repeat (rewrite !len_app in Hbl || cbn [String.append String.length] in Hbl). lia.
Qed.

Lemma parse_write n : plain n -> parse (write n) = Some [n].
Proof.
  intros H. unfold parse, write.
  assert (E : match starts "<?" (declaration +++ prettyPrint 0 n) with
              | Some r => after_decl r | None => Some (declaration +++ prettyPrint 0 n) end
              = Some (newline +++ prettyPrint 0 n)) by reflexivity.
  rewrite E. clear E.
  pose proof (parse_nodes_ok (S (String.length (newline +++ prettyPrint 0 n))) 0 [n] "") as P.
  cbn [map concat_s] in P. rewrite !app_s_nil in P.
  assert (E : parse_nodes (S (String.length (newline +++ prettyPrint 0 n))) (newline +++ prettyPrint 0 n)
              = parse_nodes (S (String.length (newline +++ prettyPrint 0 n))) (prettyPrint 0 n)).
  { cbn [parse_nodes]. rewrite skip_ws_newline. reflexivity. }
  rewrite E, P; [reflexivity|now constructor|now left|]. cbn [newline String.append String.length]. lia.
Qed.

From Verif Require Import Base AccumModel AccumProofs FsmModel FsmSpec FsmProofs.
From Coq Require Import Reals Lra Permutation.
Open Scope R_scope.

(** ** The layers of one component *)

Section Data.
Context {A : Type}.

Lemma skip_skip : forall n m (l : list A), skipn n (skipn m l) = skipn (m + n) l.
Proof. induction m as [|m IH]; intros l; simpl; auto. destruct l; [now rewrite !skipn_nil|apply IH]. Qed.
Lemma bins_concat (pix : nat) : forall n b0 (d : list A), (b0 * pix + pix * n)%nat = length d ->
  concat (map (fun b => firstn pix (skipn (b * pix) d)) (seq b0 n)) = skipn (b0 * pix) d.
Proof.
  induction n as [|n IH]; intros b0 d L; simpl.
  - rewrite skipn_all2; [reflexivity|]. lia.
  - rewrite IH by (simpl; lia). rewrite <- (firstn_skipn pix (skipn (b0 * pix) d)) at 2. f_equal.
    rewrite skip_skip. f_equal. simpl. lia.
Qed.

Definition begins (tol m : R) (c : component A) (b : nat) : Prop :=
  exists x, nth_error (c_edges c) b = Some x /\ merged_into tol m x.

Definition piece (tol m : R) (c : component A) (b : nat) : list A :=
  match nth_error (c_edges c) b with
  | Some x => if Rle_dec m x then (if Rlt_dec x (m + tol) then bin_values c b else []) else []
  | None => []
  end.
Lemma piece_yes tol m c b : begins tol m c b -> piece tol m c b = bin_values c b.
Proof. intros (x & E & H1 & H2). unfold piece. rewrite E. destruct (Rle_dec m x); [|contradiction]. destruct (Rlt_dec x (m + tol)); [|contradiction]. reflexivity. Qed.
Lemma piece_no tol m c b : ~ begins tol m c b -> piece tol m c b = [].
Proof.
  intros N. unfold piece. destruct (nth_error (c_edges c) b) as [x|] eqn:E; auto. destruct (Rle_dec m x); auto. destruct (Rlt_dec x (m + tol)); auto.
  exfalso. apply N. exists x. split; auto. split; auto.
Qed.
Lemma starting_pieces tol m (c : component A) : starting_at tol m c = concat (map (piece tol m c) (seq 0 (length (c_edges c) - 1))).
Proof. reflexivity. Qed.

Lemma pieces_none tol m c l : (forall b, In b l -> ~ begins tol m c b) -> concat (map (piece tol m c) l) = [].
Proof. induction l as [|b l IH]; intros H; simpl; auto. rewrite piece_no by (apply H; now left). apply IH. intros b' Hb'. apply H. now right. Qed.
Lemma pieces_one tol m c l b : In b l -> NoDup l -> begins tol m c b -> (forall b', In b' l -> begins tol m c b' -> b' = b) ->
  concat (map (piece tol m c) l) = bin_values c b.
Proof.
  induction l as [|b0 l IH]; intros Hb Hn H U; [destruct Hb|]. simpl. inversion Hn as [|? ? N1 N2]; subst.
  destruct (Nat.eq_dec b0 b) as [->|D].
  - rewrite piece_yes by auto. rewrite pieces_none; [apply app_nil_r|]. intros b' Hb' C. apply (U b') in C; [subst; contradiction|now right].
  - rewrite piece_no. 2:{ intros C. apply D. apply U; auto. now left. } simpl. apply IH; auto. { destruct Hb; [contradiction|auto]. } intros b' Hb'. apply U. now right.
Qed.

Lemma comp_layers_from tol (c : component A) : 0 < tol -> grid_ok tol (c_edges c) ->
  forall es b0, (forall k k' m m', (k < k')%nat -> nth_error es k = Some m -> nth_error es k' = Some m' -> m + tol <= m') ->
  (b0 <= length (c_edges c) - 1)%nat ->
  (forall b, (b0 <= b < length (c_edges c) - 1)%nat -> exists m, In m es /\ begins tol m c b) ->
  (forall b m, (b < b0)%nat -> In m es -> ~ begins tol m c b) ->
  concat (map (fun m => starting_at tol m c) es) = concat (map (bin_values c) (seq b0 (length (c_edges c) - 1 - b0))).
Proof.
  intros Ht (Hne & _ & Hgap). set (n := (length (c_edges c) - 1)%nat).
  assert (U : forall m b b', begins tol m c b -> begins tol m c b' -> b = b').
  { intros m b b' (x & Ex & X1 & X2) (y & Ey & Y1 & Y2). destruct (Nat.lt_trichotomy b b') as [H|[H|H]]; auto.
    - pose proof (Hgap b b' x y H Ex Ey). lra.
    - pose proof (Hgap b' b y x H Ey Ex). lra. }
  induction es as [|m es IH]; intros b0 Hs Hb0 Hall Hnone; simpl.
  - destruct (Nat.eq_dec b0 n) as [->|N]; [rewrite Nat.sub_diag; reflexivity|]. destruct (Hall b0) as (m & [] & _). fold n. lia.
  - assert (Hs' : forall k k' a a', (k < k')%nat -> nth_error es k = Some a -> nth_error es k' = Some a' -> a + tol <= a').
    { intros k k' a a' Hk E1 E2. apply (Hs (S k) (S k')); auto. lia. }
    assert (Hm : forall m', In m' es -> m + tol <= m').
    { intros m' H'. apply In_nth_error in H'. destruct H' as (k & Hk). apply (Hs 0%nat (S k)); auto. lia. }
    destruct (Nat.eq_dec b0 n) as [->|N].
    { rewrite starting_pieces, pieces_none.
      - simpl. rewrite (IH n); auto. + intros b Hb. fold n in Hb. lia. + intros b m' Hb Hm'. apply Hnone; auto. now right.
      - intros b Hb. apply in_seq in Hb. fold n in Hb. apply Hnone; [lia|now left]. }
    destruct (Hall b0) as (m0 & [<-|Hm0] & B0). { fold n; lia. }
    + rewrite starting_pieces. fold n. rewrite (pieces_one tol m c _ b0); auto.
      2:{ apply in_seq. lia. } 2:{ apply seq_NoDup. } 2:{ intros b' _ B'. eapply U; eauto. }
      replace (n - b0)%nat with (S (n - S b0)) by lia. simpl. f_equal. apply IH; auto; [lia| |].
      * intros b Hb. destruct (Hall b) as (m' & [<-|Hm'] & B'). { fold n in Hb |- *; lia. } { assert (b = b0) by (eapply U; eauto). lia. } eauto.
      * intros b m' Hb Hm' B'. destruct (Nat.eq_dec b b0) as [->|D].
        { destruct B' as (x & Ex & X1 & X2). destruct B0 as (y & Ey & Y1 & Y2). assert (x = y) by congruence. subst y. pose proof (Hm m' Hm'). lra. }
        { apply (Hnone b m'); auto; [lia|now right]. }
    + rewrite starting_pieces, pieces_none.
      * simpl. apply IH; auto.
        { intros b Hb. destruct (Nat.eq_dec b b0) as [->|D]; [eauto|]. destruct (Hall b Hb) as (m' & [<-|Hm'] & B'); [|eauto]. exfalso.
          destruct B' as (x & Ex & X1 & X2). destruct B0 as (y & Ey & Y1 & Y2). pose proof (Hm m0 Hm0). assert (b0 < b)%nat by lia.
          pose proof (Hgap b0 b y x H0 Ey Ex). lra. }
        { intros b m' Hb Hm'. apply Hnone; auto. now right. }
      * intros b Hb B'. apply in_seq in Hb. destruct (Nat.lt_ge_cases b b0) as [L|L]. { apply (Hnone b m); auto. now left. }
        destruct B' as (x & Ex & X1 & X2). destruct B0 as (y & Ey & Y1 & Y2). pose proof (Hm m0 Hm0).
        destruct (Nat.eq_dec b b0) as [->|D]; [assert (x = y) by congruence; subst; lra|].
        assert (b0 < b)%nat by lia. pose proof (Hgap b0 b y x H0 Ey Ex). lra.
Qed.

(** ** Writing the rows *)

Definition row_piece (o : option nat) (c : component A) : list A := match o with Some b => bin_values c b | None => [] end.
Fixpoint row_layer (r : list (option nat)) (cs : list (component A)) : list A :=
  match r, cs with o :: r', c :: cs' => row_piece o c ++ row_layer r' cs' | _, _ => [] end.
Definition row_fits (o : option nat) (c : component A) : Prop :=
  forall b, o = Some b -> (b * c_pix c + c_pix c <= length (c_data c))%nat.

Lemma piece_length o c : row_fits o c -> length (row_piece o c) = match o with Some _ => c_pix c | None => 0%nat end.
Proof.
  intros H. destruct o as [b|]; auto. simpl. unfold bin_values. rewrite firstn_length, skipn_length. specialize (H b eq_refl). lia.
Qed.

Lemma merge_row_ok zero r cs : Forall2 row_fits r cs -> forall pre q, (length (row_layer r cs) <= q)%nat ->
  merge_row (map c_data cs) (map c_pix cs) r (pre ++ repeat zero q, length pre) =
  Ok ((pre ++ row_layer r cs) ++ repeat zero (q - length (row_layer r cs)), length (pre ++ row_layer r cs)).
Proof.
  induction 1 as [|o c r cs Ho H IH]; intros pre q Hq; simpl.
  - rewrite app_nil_r, Nat.sub_0_r. reflexivity.
  - destruct o as [b|]; [|apply IH; auto]. specialize (Ho b eq_refl). simpl in Hq. rewrite app_length in Hq.
    assert (Lb : length (bin_values c b) = c_pix c). { unfold bin_values. rewrite firstn_length, skipn_length. lia. }
    unfold copy_block. cbn [fst snd]. destruct (Nat.leb_spec (b * c_pix c + c_pix c) (length (c_data c))) as [_|C]; [|lia].
    destruct (Nat.leb_spec (length pre + c_pix c) (length (pre ++ repeat zero q))) as [_|C]; [|rewrite app_length, repeat_length in C; lia].
    cbn [andb obind].
    assert (E : (firstn (length pre) (pre ++ repeat zero q) ++ firstn (c_pix c) (skipn (b * c_pix c) (c_data c)) ++
                 skipn (length pre + c_pix c) (pre ++ repeat zero q))%list = (pre ++ bin_values c b) ++ repeat zero (q - c_pix c)).
    { rewrite firstn_app, Nat.sub_diag, firstn_all. simpl. rewrite app_nil_r, <- app_assoc. f_equal. f_equal.
      rewrite skipn_app, skipn_all2 by lia. simpl. replace (length pre + c_pix c - length pre)%nat with (c_pix c) by lia.
      replace q with (c_pix c + (q - c_pix c))%nat at 1 by lia. rewrite repeat_app, skipn_app, repeat_length, Nat.sub_diag, skipn_all2 by (rewrite repeat_length; lia). reflexivity. }
    rewrite E. replace (length pre + c_pix c)%nat with (length (pre ++ bin_values c b)) by (rewrite app_length, Lb; reflexivity).
    rewrite IH by lia. simpl. replace (q - length (bin_values c b ++ row_layer r cs))%nat with (q - c_pix c - length (row_layer r cs))%nat by (rewrite app_length, Lb; lia).
    rewrite <- !app_assoc. reflexivity.
Qed.

Lemma merge_rows_ok zero cs rs : List.Forall (fun r => Forall2 row_fits r cs) rs -> forall pre q,
  (length (concat (map (fun r => row_layer r cs) rs)) <= q)%nat ->
  mfold (fun st row => merge_row (map c_data cs) (map c_pix cs) row st) rs (pre ++ repeat zero q, length pre) =
  Ok ((pre ++ concat (map (fun r => row_layer r cs) rs)) ++ repeat zero (q - length (concat (map (fun r => row_layer r cs) rs))),
      length (pre ++ concat (map (fun r => row_layer r cs) rs))).
Proof.
  induction 1 as [|r rs Hr H IH]; intros pre q Hq; simpl.
  - rewrite app_nil_r, Nat.sub_0_r. reflexivity.
  - simpl in Hq. rewrite app_length in Hq. rewrite merge_row_ok by (auto; lia). simpl. rewrite IH by lia.
    rewrite <- !app_assoc. rewrite (app_length (row_layer r cs)). rewrite Nat.sub_add_distr. reflexivity.
Qed.

Lemma layer_pixels_ok r cs : Forall2 row_fits r cs -> forall s,
  layer_pixels (map c_pix cs) r s = Ok (s + length (row_layer r cs))%nat.
Proof.
  induction 1 as [|o c r cs Ho H IH]; intros s; simpl; [f_equal; lia|]. rewrite IH, app_length, (piece_length _ _ Ho). f_equal. destruct o; lia.
Qed.
Lemma nPixels_ok cs rs : List.Forall (fun r => Forall2 row_fits r cs) rs -> forall acc,
  mfold (fun acc row => obind (layer_pixels (map c_pix cs) row 0) (fun n => Ok (acc ++ [n])%list)) rs acc =
  Ok (acc ++ map (fun r => length (row_layer r cs)) rs).
Proof.
  induction 1 as [|r rs Hr H IH]; intros acc; simpl; [now rewrite app_nil_r|]. rewrite (layer_pixels_ok r cs Hr). simpl. rewrite IH, <- app_assoc. reflexivity.
Qed.

Lemma swap_concat {B C} (f : B -> C -> list A) (bs : list B) (cs : list C) :
  Permutation (concat (map (fun b => concat (map (f b) cs)) bs)) (concat (map (fun c => concat (map (fun b => f b c) bs)) cs)).
Proof.
  induction bs as [|b bs IH]; simpl.
  - induction cs; simpl; auto.
  - rewrite IH. clear IH. induction cs as [|c cs IH]; simpl; auto. rewrite <- app_assoc.
    rewrite <- app_assoc. apply Permutation_app_head. rewrite Permutation_app_swap_app. apply Permutation_app_head. exact IH.
Qed.

End Data.

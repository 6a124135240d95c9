(** C27, C28, C53, C54: counting events, names of response columns, diffuse responses in event files. *)
From Coq Require Import Reals Lra String Ascii.
From Verif Require Import Base AccumModel AccumProofs CountsProps SmapNpred EvtModel EvtSpec EvtProofs EvtFiles.
Local Open Scope nat_scope.

(** ** C27 *)
Lemma Rsum_cons' x l : Rsum (x :: l) = (x + Rsum l)%R. Proof. reflexivity. Qed.
Lemma Rsum_repeat0 n : Rsum (repeat 0%R n) = 0%R.
Proof. induction n; unfold Rsum in *; simpl; lra. Qed.
Lemma Rsum_ones {A} (l : list A) : Rsum (map (fun _ => 1%R) l) = INR (length l).
Proof. induction l as [|a l IH]. reflexivity. cbn [map length]. rewrite S_INR, <- IH. unfold Rsum. simpl. lra. Qed.
Lemma nth_repeat0' n i : nth i (repeat 0%R n) 0%R = 0%R.
Proof. revert i. induction n; intros [|i]; simpl; auto. Qed.
Lemma nobs_ok eb src evs : increasing eb -> 2 <= length eb -> exists out, nobs eb src evs = Ok out /\ length out = length eb - 1 /\
  (forall i, S i < length eb -> exists sel, selection (fun e => in_bin eb i (ne_energy e)) evs sel /\ nth i out 0%R = Rsum (map (share src) sel)) /\
  exists sel, selection (fun e => in_range eb (ne_energy e)) evs sel /\ Rsum out = Rsum (map (share src) sel).
Proof.
  intros I L. unfold nobs. destruct eb as [|x eb']; [simpl in L; lia|]. set (eb := x :: eb') in *.
  destruct (nobs_fold eb src I L evs (repeat 0%R (length eb - 1)) (repeat_length _ _)) as (out & P & Q & B & (sel & S1 & S2)). exists out. split; [exact P|]. rewrite repeat_length in Q. split; auto. split.
  - intros i Hi. destruct (B i Hi) as (s & B1 & B2). exists s. split; auto. rewrite B2, nth_repeat0'. lra.
  - exists sel. split; auto. rewrite S2, Rsum_repeat0. lra.
Qed.
(** The events of each bin are counted, those in the range once in all, and the others not. *)
Theorem C27_nobs : forall eb evs, increasing eb -> 2 <= length eb ->
  exists out, nobs eb None evs = Ok out /\ length out = length eb - 1 /\
    (forall i, S i < length eb -> exists sel, selection (fun e => in_bin eb i (ne_energy e)) evs sel /\ nth i out 0%R = INR (length sel)) /\
    (exists sel, selection (fun e => (nth 0 eb 0 <= ne_energy e)%R /\ (ne_energy e <= nth (length eb - 1) eb 0)%R) evs sel /\ Rsum out = INR (length sel)).
Proof.
  intros eb evs I L. destruct (nobs_ok eb None evs I L) as (out & P & Q & B & (sel & S1 & S2)). exists out. split; auto. split; auto. split.
  - intros i Hi. destruct (B i Hi) as (s & B1 & B2). exists s. split; auto. rewrite B2. apply Rsum_ones.
  - exists sel. split; auto. rewrite S2. apply Rsum_ones.
Qed.
Print Assumptions C27_nobs.
(** In an increasing list of bounds no energy is in two bins. *)
Theorem C27_one_bin : forall eb i j x, increasing eb -> in_bin eb i x -> in_bin eb j x -> i = j.
Proof. exact bin_unique. Qed.
Print Assumptions C27_one_bin.
Definition ev_at (x : R) : nevent := mk_nev x (fun s => if (s =? 0)%Z then 1 else 3)%R 4%R.
Example C27_case : increasing [1; 2; 4]%R /\ 2 <= length [1; 2; 4]%R /\
  nobs [1; 2; 4]%R None [ev_at 1; ev_at 2; ev_at 4; ev_at 5; ev_at 3]%R = Ok [0 + 1; 0 + 1 + 1 + 1]%R.
Proof.
  split. { intros i j A B. simpl in B. destruct i as [|[|[|]]], j as [|[|[|]]]; simpl; try lia; lra. } split; [simpl; lia|].
  unfold nobs. cbn [mfold length Nat.sub repeat]. unfold nobs_event, front, back, std_upper_bound. cbn [vec_get nth_error length Nat.sub obind upper_bound_loop ne_energy ev_at Nat.eqb Nat.div2 Nat.add minus1].
  repeat match goal with |- context [Rltb ?a ?b] => first [rewrite (Rltb_t a b) by lra | rewrite (Rltb_f a b) by lra]; cbn [orb vec_get nth_error length Nat.sub obind upper_bound_loop ne_energy ev_at Nat.eqb Nat.div2 Nat.add minus1 vec_at upd mfold]
              | |- context [Reqb ?a ?b] => destruct (Reqb_spec a b); try (exfalso; lra); cbn [orb vec_get nth_error length Nat.sub obind upper_bound_loop ne_energy ev_at Nat.eqb Nat.div2 Nat.add minus1 vec_at upd mfold] end.
  reflexivity.
Qed.

(** ** C53 *)
Lemma selection_unique {A} (P : A -> Prop) l a b : selection P l a -> selection P l b -> a = b.
Proof. intros H. revert b. induction H as [|x l l' Hp H IH|x l l' Hp H IH]; intros b K; inversion K; subst; auto; try contradiction. f_equal. auto. Qed.
Lemma selection_in {A} (P : A -> Prop) l a x : selection P l a -> In x a -> In x l /\ P x.
Proof. intros H. induction H as [|y l l' Hp H IH|y l l' Hp H IH]; simpl; [tauto| |tauto]. intros [<-|I]; auto. tauto. Qed.
(** The counts attributed to the sources of a model add up to the observed counts in each bin, when
    the model sum of every event in range is the sum over the sources (C52) and is not 0 (the code
    divides by it). *)
Theorem C53_shares : forall eb srcs evs, increasing eb -> 2 <= length eb ->
  (forall e, In e evs -> in_range eb (ne_energy e) -> ne_sum e = Rsum (map (ne_flux e) srcs) /\ ne_sum e <> 0%R) ->
  exists all, nobs eb None evs = Ok all /\
  exists each, Forall2 (fun s out => nobs eb (Some s) evs = Ok out) srcs each /\
    forall i, S i < length eb -> Rsum (map (fun out => nth i out 0%R) each) = nth i all 0%R.
Proof.
  intros eb srcs evs I L H. destruct (nobs_ok eb None evs I L) as (all & P & _ & B & _). exists all. split; auto.
  exists (map (fun s => match nobs eb (Some s) evs with Ok o => o | _ => [] end) srcs). split.
  - clear H. induction srcs as [|s srcs IH]; simpl; constructor; auto. destruct (nobs_ok eb (Some s) evs I L) as (out & -> & _). reflexivity.
  - intros i Hi. destruct (B i Hi) as (sel & S1 & S2). rewrite S2, map_map.
    transitivity (Rsum (map (fun s => Rsum (map (share (Some s)) sel)) srcs)).
    { f_equal. apply map_ext. intros s. destruct (nobs_ok eb (Some s) evs I L) as (out & -> & _ & B' & _). destruct (B' i Hi) as (sel' & S1' & ->). now rewrite (selection_unique _ _ _ _ S1 S1'). }
    assert (K : forall e, In e sel -> ne_sum e = Rsum (map (ne_flux e) srcs) /\ ne_sum e <> 0%R). { intros e Ie. destruct (selection_in _ _ _ _ S1 Ie) as [A C]. apply H; auto. eapply bin_range; eauto. }
    clear -K. induction sel as [|e sel IH].
    + simpl. induction srcs as [|s srcs IHs]; unfold Rsum in *; simpl; auto. rewrite IHs by (intros ? []). lra.
    + cbn [map]. destruct (K e) as [K1 K2]; [now left|]. specialize (IH (fun e' I => K e' (or_intror I))).
      match goal with |- _ = ?r => change r with (1 + Rsum (map (share None) sel))%R end. rewrite <- IH.
      transitivity (Rsum (map (fun s => share (Some s) e) srcs) + Rsum (map (fun s => Rsum (map (share (Some s)) sel)) srcs))%R.
      * clear. induction srcs as [|s srcs IH]; cbn [map]. unfold Rsum; simpl; lra. rewrite !Rsum_cons', IH. lra.
      * f_equal. simpl share. replace 1%R with (Rsum (map (ne_flux e) srcs) / ne_sum e)%R by (rewrite <- K1; now field).
        clear. induction srcs as [|s srcs IH]; cbn [map]. unfold Rsum; simpl; lra. rewrite !Rsum_cons', IH. lra.
Qed.
Print Assumptions C53_shares.
Example C53_case : forall e, In e [ev_at 1; ev_at 3]%R -> ne_sum e = Rsum (map (ne_flux e) [0; 1]%Z) /\ ne_sum e <> 0%R.
Proof. intros e [<-|[<-|[]]]; unfold Rsum; simpl; lra. Qed.

(** ** C28 *)
Definition registered (root : string) (names : list string) : drn := fold_left addColumn names (mk_drn root []).
Lemma registered_ok root names : dr_root (registered root names) = root /\ dr_cols (registered root names) = firsts [] names.
Proof. unfold registered. destruct (addColumn_cols names (mk_drn root [])) as [A B]. split; auto. Qed.
Lemma key_registered root names i c : nth_error (firsts [] names) i = Some c -> dr_key (registered root names) c = Ok (root ++ decimal i)%string.
Proof. intros H. destruct (registered_ok root names) as [A B]. unfold dr_key. rewrite B, (index_of_nth _ _ _ (firsts_nodup names []) H), A. reflexivity. Qed.
(** Key of a registered name, and then the column of that key (fewer than 2^31 columns). *)
Theorem C28_round_trip : forall root names c, In c names -> (Z.of_nat (length names) <= 2 ^ 31)%Z ->
  exists k, dr_key (registered root names) c = Ok k /\ dr_key_at (registered root names) k = Ok c.
Proof.
  intros root names c I L. assert (J : In c (firsts [] names)) by (apply firsts_in; auto). apply In_nth_error in J as (i & Hi).
  exists (root ++ decimal i)%string. split. now apply key_registered. destruct (registered_ok root names) as [A B]. rewrite <- A at 2. rewrite key_at_ok.
  - rewrite B. unfold vec_at. now rewrite Hi.
  - assert (Hl : i < length (firsts [] names)) by (apply nth_error_Some; congruence). assert (G : forall l seen, length (firsts seen l) <= length l). { clear. induction l as [|x l IH]; intros seen; simpl; auto. destruct (existsb _ _). specialize (IH seen). lia. simpl. specialize (IH (seen ++ [x])%list). lia. } specialize (G names []). lia.
Qed.
Print Assumptions C28_round_trip.
(** Different names have different keys. *)
Theorem C28_keys_distinct : forall root names a b k, dr_key (registered root names) a = Ok k -> dr_key (registered root names) b = Ok k -> a = b.
Proof.
  intros root names a b k. unfold dr_key. destruct (index_of a _) as [i|] eqn:Ea; [|discriminate]. destruct (index_of b _) as [j|] eqn:Eb; [|discriminate]. intros [= <-] [= H]. apply append_inj, decimal_inj in H. subst j.
  apply index_of_some in Ea as [Ea _]. apply index_of_some in Eb as [Eb _]. congruence.
Qed.
Print Assumptions C28_keys_distinct.
(** Registering again changes nothing; a new name gets the next number and the others keep theirs. *)
Theorem C28_idempotent : forall root names c, In c names -> registered root (names ++ [c])%list = registered root names.
Proof.
  intros root names c I. unfold registered. rewrite fold_left_app. simpl. fold (registered root names). destruct (registered_ok root names) as [A B]. unfold addColumn at 1.
  replace (existsb (String.eqb c) (dr_cols (registered root names))) with true; auto. symmetry. apply existsb_str. rewrite B. apply firsts_in. auto.
Qed.
Print Assumptions C28_idempotent.
Theorem C28_stable : forall root names more c k, dr_key (registered root names) c = Ok k -> dr_key (registered root (names ++ more)%list) c = Ok k.
Proof.
  intros root names more c k H. destruct (registered_ok root names) as [A B]. unfold dr_key in H. destruct (index_of c (dr_cols (registered root names))) as [i|] eqn:E; [|discriminate]. injection H as <-. rewrite A.
  apply key_registered. rewrite firsts_app. apply index_of_some in E as [E _]. rewrite B in E. rewrite nth_error_app1; auto. apply nth_error_Some. congruence.
Qed.
Print Assumptions C28_stable.
(** Unknown names, indices and keys with an index that is not in use throw. *)
Theorem C28_unknown_throws : forall root names,
  (forall c, ~ In c names -> dr_key (registered root names) c = Throw) /\
  (forall i, length (firsts [] names) <= i -> dr_at (registered root names) i = Throw) /\
  (forall i, length (firsts [] names) <= i -> (Z.of_nat i < 2 ^ 31)%Z -> dr_key_at (registered root names) (root ++ decimal i)%string = Throw) /\
  (forall k, substring 0 (String.length root) k <> root -> dr_key_at (registered root names) k = Throw).
Proof.
  intros root names. destruct (registered_ok root names) as [A B]. split; [|split; [|split]].
  - intros c N. unfold dr_key. replace (index_of c _) with (@None nat); auto. symmetry. apply index_of_none. rewrite B, firsts_in. tauto.
  - intros i H. unfold dr_at, vec_at. rewrite B. apply nth_error_None in H. now rewrite H.
  - intros i H Hi. rewrite <- A at 2. rewrite key_at_ok by auto. rewrite B. unfold vec_at. apply nth_error_None in H. now rewrite H.
  - intros k H. unfold dr_key_at, substr. rewrite A. apply String.eqb_neq in H. now rewrite H.
Qed.
Print Assumptions C28_unknown_throws.
(** A string that is the key of no column can be accepted: the root alone, and trailing characters. *)
Theorem C28_other_keys_refuted :
  ~ (forall root names k, (forall c, dr_key (registered root names) c <> Ok k) -> dr_key_at (registered root names) k = Throw).
Proof.
  intros H. specialize (H "DIFRSP"%string ["a"; "b"]%string "DIFRSP1x"%string). assert (E : dr_key_at (registered "DIFRSP" ["a"; "b"]%string) "DIFRSP1x" = Ok "b"%string) by reflexivity.
  rewrite H in E; [discriminate|]. intros c K. unfold dr_key in K. simpl in K. destruct (String.eqb c "a"); [discriminate|]. destruct (String.eqb c "b"); discriminate.
Qed.
Print Assumptions C28_other_keys_refuted.
Example C28_case : let names := map (fun i => String.append "src" (decimal i)) (seq 0 12) in
  In "src11"%string names /\ dr_key (registered "DIFRSP" names) "src11" = Ok "DIFRSP11"%string /\ dr_key_at (registered "DIFRSP" names) "DIFRSP11" = Ok "src11"%string /\ dr_key_at (registered "DIFRSP" names) "DIFRSP" = Ok "src0"%string.
Proof. cbv zeta. split; [simpl; tauto|]. repeat split; reflexivity. Qed.

(** ** C54 *)
(** [fs]: the event files, each with the responses [resp row source] that are computed for its events.
    The same names [E] are in the headers of all the files, in the same order and before unused ones;
    names of sources differ by more than their case and are not in the files in the old form. *)
Theorem C54_written_partial : forall irf srcs clobber E fs,
  srcs <> [] -> NoDup (map (diffuseSrcName irf) srcs) -> (forall s, In s srcs -> ~ In (altName irf s) E) -> (forall f resp, In (f, resp) fs -> tidy E f) ->
  exists out, gtdiffrsp irf srcs clobber (mk_drn "DIFRSP" []) fs = Ok out /\ length out = length fs /\
    forall k f resp, nth_error fs k = Some (f, resp) -> exists f', nth_error out k = Some f' /\ f_rows f' = f_rows f /\ forall r, r < f_rows f ->
      (forall s, In s srcs -> ~ In (diffuseSrcName irf s) E -> read_response irf f' r s = Ok (resp r s)) /\
      (forall s, In (diffuseSrcName irf s) E -> read_response irf f' r s = read_response irf f r s).
Proof.
  intros irf srcs clobber E fs NS ND NA T. destruct fs as [|fr fs'] eqn:Q. { exists []. split; [reflexivity|]. split; [reflexivity|]. intros [|k]; discriminate. } rewrite <- Q in *.
  assert (TE : NoDup E /\ ~ In "NONE"%string E). { destruct fr as [f0 r0]. destruct (T f0 r0) as (_ & A & B & _); auto. rewrite Q. now left. } destruct TE as [NE NN].
  destruct (run_ok irf srcs E ND NE NN NA NS clobber fs (mk_drn "DIFRSP" [])) as (out & P & L & H). { split; auto. } { intros [f r] I. eapply T; eauto. }
  exists out. split; [exact P|]. split; [exact L|]. intros k f resp Hk. destruct (H k f resp Hk) as (f' & A & B & C & D). exists f'. split; [exact A|]. split; [exact B|]. intros r Hr. split; intros; auto.
Qed.
Print Assumptions C54_written_partial.
(** Evaluating on concrete files. *)
Lemma eval1 {A} (x : outcome (list A)) (P : A -> Prop) : match x with Ok [a] => P a | _ => False end -> exists a, x = Ok [a] /\ P a.
Proof. destruct x as [[|a [|b l]]| |]; try tauto. eauto. Qed.
Lemma eval2 {A} (x : outcome (list A)) (P : A -> A -> Prop) : match x with Ok [a; b] => P a b | _ => False end -> exists a b, x = Ok [a; b] /\ P a b.
Proof. destruct x as [[|a [|b [|c l]]]| |]; try tauto. eauto. Qed.
Definition nm_a := "p8r3__a"%string. Definition nm_b := "p8r3__b"%string.
Definition col (n : nat) (v : R) : string * list R := (field n, [v; v]).
Definition file_ab : ft1 := mk_ft1 [nm_a; nm_b] [col 0 1%R; col 1 2%R] 2.
Definition file_ba : ft1 := mk_ft1 [nm_b; nm_a] [col 0 2%R; col 1 1%R] 2.
Example C54_case : let fs := [(file_ab, fun r s => INR r); (file_ab, fun r s => 5%R)] in
  tidy [nm_a; nm_b] file_ab /\ NoDup (map (diffuseSrcName "P8R3::FRONT") ["C"; "a"]%string) /\ (forall s, In s ["C"; "a"]%string -> ~ In (altName "P8R3::FRONT" s) [nm_a; nm_b]) /\
  exists f1 f2, gtdiffrsp "P8R3::FRONT" ["C"; "a"]%string false (mk_drn "DIFRSP" []) fs = Ok [f1; f2] /\
    read_response "P8R3::FRONT" f1 1 "C" = Ok (INR 1) /\ read_response "P8R3::FRONT" f2 1 "C" = Ok 5%R /\ read_response "P8R3::FRONT" f2 0 "a" = Ok 1%R /\ read_response "P8R3::FRONT" f2 0 "b" = Ok 2%R.
Proof.
  cbv zeta. split.
  { split; [now exists 0|]. split. { constructor. intros [H|[]]; discriminate. constructor. intros []. constructor. } split. { intros [H|[H|[]]]; discriminate. } split.
    - intros [|[|i]] H; simpl in H; try lia; discriminate.
    - intros k c. simpl f_cols. unfold col. cbn [tfind]. destruct (String.eqb k (field 0)); [intros [= <-]; reflexivity|]. destruct (String.eqb k (field 1)); [intros [= <-]; reflexivity|discriminate]. }
  split. { constructor. intros [H|[]]; discriminate. constructor. intros []. constructor. } split. { intros s [<-|[<-|[]]] [H|[H|[]]]; discriminate. }
  apply eval2. vm_compute. repeat split; reflexivity.
Qed.
(** With files that list the same names in different orders, responses that were in the second file
    are read back for the wrong source: the names known from the first file are kept. *)
Theorem C54_order_refuted :
  ~ (forall irf srcs fs out, srcs <> [] -> NoDup (map (diffuseSrcName irf) srcs) -> (forall f resp, In (f, resp) fs -> exists E, tidy E f) ->
       gtdiffrsp irf srcs false (mk_drn "DIFRSP" []) fs = Ok out ->
       forall k f resp f' r s v, nth_error fs k = Some (f, resp) -> nth_error out k = Some f' -> read_response irf f r s = Ok v -> read_response irf f' r s = Ok v).
Proof.
  intros H. specialize (H "P8R3" ["c"] [(file_ab, fun _ _ => 3%R); (file_ba, fun _ _ => 3%R)])%string.
  assert (E : exists a b, gtdiffrsp "P8R3" ["c"]%string false (mk_drn "DIFRSP" []) [(file_ab, fun _ _ => 3%R); (file_ba, fun _ _ => 3%R)] = Ok [a; b] /\
    read_response "P8R3" file_ba 0 "a" = Ok 1%R /\ read_response "P8R3" b 0 "a" = Ok 2%R) by (apply eval2; vm_compute; split; reflexivity).
  destruct E as (a & b & E & E1 & E2).
  assert (Ti : forall f resp, In (f, resp) [(file_ab, (fun _ _ => 3%R) : nat -> string -> R); (file_ba, fun _ _ => 3%R)] -> exists E, tidy E f).
  { intros f resp [[= <- _]|[[= <- _]|[]]]; [exists [nm_a; nm_b]|exists [nm_b; nm_a]]; (split; [now exists 0|]; split; [constructor; [intros [Q|[]]; discriminate|constructor; [intros []|constructor]]|]; split; [intros [Q|[Q|[]]]; discriminate|]; split;
      [intros [|[|i]] Q; simpl in Q; try lia; discriminate|]; intros k c; simpl f_cols; unfold col; cbn [tfind]; destruct (String.eqb k (field 0)); [intros [= <-]; reflexivity|]; destruct (String.eqb k (field 1)); [intros [= <-]; reflexivity|discriminate]). }
  specialize (H _ ltac:(discriminate) ltac:(constructor; [intros []|constructor]) Ti E 1 _ _ _ 0 "a"%string 1%R eq_refl eq_refl E1).
  rewrite E2 in H. injection H as H. lra.
Qed.
Print Assumptions C54_order_refuted.
(** With an unused name before one in use, the response of the latter is overwritten. *)
Theorem C54_unused_first_refuted :
  exists f out, f_hdr f = ["NONE"%string; nm_b] /\ f_rows f = 2 /\
    gtdiffrsp "P8R3" ["c"]%string false (mk_drn "DIFRSP" []) [(f, fun _ _ => 3%R)] = Ok [out] /\
    read_response "P8R3" f 0 "b" = Ok 2%R /\ read_response "P8R3" out 0 "b" = Ok 9%R /\ 9%R <> 2%R.
Proof.
  set (f := mk_ft1 ["NONE"%string; nm_b] [col 0 9%R; col 1 2%R] 2). exists f.
  assert (E : exists a, gtdiffrsp "P8R3" ["c"]%string false (mk_drn "DIFRSP" []) [(f, fun _ _ => 3%R)] = Ok [a] /\ read_response "P8R3" f 0 "b" = Ok 2%R /\ read_response "P8R3" a 0 "b" = Ok 9%R) by (apply eval1; vm_compute; split; reflexivity).
  destruct E as (a & E & E1 & E2). exists a. split; [reflexivity|]. split; [reflexivity|]. split; [exact E|]. split; [exact E1|]. split; [exact E2|lra].
Qed.
Print Assumptions C54_unused_first_refuted.
(** Reading a file with two unused names before one in use takes the wrong column. *)
Theorem C54_two_unused_refuted :
  ~ (forall irf f r s i c, NoDup (filter (fun n => negb (String.eqb n "NONE")) (f_hdr f)) -> nth_error (f_hdr f) i = Some (diffuseSrcName irf s) -> tfind (field i) (f_cols f) = Some c -> r < length c ->
       forall v, read_response irf f r s = Ok v -> v = nth r c 0%R).
Proof.
  intros H. specialize (H "P8R3" (mk_ft1 [nm_a; "NONE"; "NONE"; nm_b] [col 0 1%R; col 1 9%R; col 2 9%R; col 3 2%R] 2) 0 "b" 3 [2; 2]%R)%string.
  specialize (H ltac:(simpl; constructor; [intros [Q|[]]; discriminate|constructor; [intros []|constructor]]) eq_refl eq_refl ltac:(simpl; lia) 9%R ltac:(vm_compute; reflexivity)). simpl in H. lra.
Qed.
Print Assumptions C54_two_unused_refuted.
(** A file that has a column under the old form of the name is skipped, but the response is not found. *)
Theorem C54_old_form_refuted :
  ~ (forall irf srcs f resp out r s, NoDup (map (diffuseSrcName irf) srcs) -> gtdiffrsp irf srcs false (mk_drn "DIFRSP" []) [(f, resp)] = Ok [out] -> r < f_rows f -> In s srcs -> exists v, read_response irf out r s = Ok v).
Proof.
  intros H. set (f := mk_ft1 ["p8r3::a"%string] [col 0 1%R] 2).
  destruct (H "P8R3" ["a"] f (fun _ _ => 1%R) f 0 "a")%string as (v & Hv); [constructor; [intros []|constructor]|reflexivity|simpl; lia|now left|]. discriminate Hv.
Qed.
Print Assumptions C54_old_form_refuted.
(** Two sources whose names differ only by case get the response of the first. *)
Theorem C54_case_refuted :
  ~ (forall irf srcs f resp out r s, NoDup srcs -> tidy [] f -> gtdiffrsp irf srcs false (mk_drn "DIFRSP" []) [(f, resp)] = Ok [out] -> r < f_rows f -> In s srcs -> read_response irf out r s = Ok (resp r s)).
Proof.
  intros H. set (f := mk_ft1 [] [] 1). set (resp := fun (_ : nat) (s : string) => if String.eqb s "gal" then 2%R else 1%R).
  assert (E : exists a, gtdiffrsp "P8R3" ["Gal"; "gal"]%string false (mk_drn "DIFRSP" []) [(f, resp)] = Ok [a] /\ read_response "P8R3" a 0 "gal" = Ok 1%R) by (apply eval1; vm_compute; reflexivity).
  destruct E as (a & E & E1). specialize (H "P8R3" ["Gal"; "gal"] f resp a 0 "gal")%string. specialize (H ltac:(constructor; [intros [Q|[]]; discriminate|constructor; [intros []|constructor]])).
  assert (T : tidy [] f). { split; [now exists 0|]. split; [constructor|]. split; [intros []|]. split; [intros i Hi; simpl in Hi; lia|]. intros k c Q. discriminate Q. }
  specialize (H T E ltac:(simpl; lia) ltac:(simpl; auto)). rewrite E1 in H. unfold resp in H. simpl in H. injection H as H. lra.
Qed.
Print Assumptions C54_case_refuted.
(** Clobber: a column that exists is kept, not computed again. *)
Theorem C54_clobber_refuted :
  ~ (forall irf srcs E f resp out r s, NoDup (map (diffuseSrcName irf) srcs) -> tidy E f -> gtdiffrsp irf srcs true (mk_drn "DIFRSP" []) [(f, resp)] = Ok [out] -> r < f_rows f -> In s srcs -> read_response irf out r s = Ok (resp r s)).
Proof.
  intros H. assert (E : exists a, gtdiffrsp "P8R3" ["a"]%string true (mk_drn "DIFRSP" []) [(file_ab, fun _ _ => 7%R)] = Ok [a] /\ read_response "P8R3" a 0 "a" = Ok 1%R) by (apply eval1; vm_compute; reflexivity).
  destruct E as (a & E & E1).
  specialize (H "P8R3" ["a"] [nm_a; nm_b] file_ab (fun _ _ => 7%R) a 0 "a" ltac:(constructor; [intros []|constructor]) (proj1 C54_case) E ltac:(simpl; lia) ltac:(now left))%string.
  rewrite E1 in H. injection H as H. lra.
Qed.
Print Assumptions C54_clobber_refuted.

(** Proofs for gtltsum and gtsrcprob. *)
From Coq Require Import Reals Lra List Bool Arith NArith String Lia Permutation.
From Verif Require Import Base AccumModel AccumProofs EvtModel LtpModel LtpSpec.
Import ListNotations.
Local Open Scope string_scope.
Local Open Scope list_scope.
Local Open Scope R_scope.

Lemma Reqb_spec a b : reflect (a = b) (Reqb a b).
Proof. unfold Reqb. destruct (Req_EM_T a b); constructor; auto. Qed.
Lemma mfold_app' {A S} (f : S -> A -> outcome S) l1 l2 s : mfold f (l1 ++ l2) s = obind (mfold f l1 s) (mfold f l2).
Proof. revert s. induction l1 as [|a l1 IH]; intros s; cbn [mfold app obind]; auto. destruct (f s a); cbn [obind]; auto. Qed.
Lemma upd_app {A} (p : list A) x l y : upd (p ++ x :: l) (length p) y = p ++ y :: l.
Proof. induction p as [|a p IH]; cbn [upd app length]; [reflexivity|rewrite IH; reflexivity]. Qed.
Lemma vec_at_app {A} (p : list A) x l : vec_at (p ++ x :: l) (length p) = Ok x.
Proof. unfold vec_at. rewrite nth_error_app2, Nat.sub_diag; [reflexivity|lia]. Qed.

(** ** The loops of gtltsum *)
Definition padd (a b : list R) : list R := map (fun p => fst p + snd p) (combine a b).
Definition radd (a b : list (list R)) : list (list R) := map (fun p => padd (fst p) (snd p)) (combine a b).

Lemma add_cells_loop my : forall r pre prem full, length pre = length prem -> length r = length my -> full = prem ++ my ->
  mfold (fun r j => obind (vec_at r j) (fun x => obind (vec_at full j) (fun y => Ok (upd r j (x + y))))) (seq (length prem) (length my)) (pre ++ r) = Ok (pre ++ padd r my).
Proof.
  induction my as [|y my IH]; intros [|x r] pre prem full Hp Hl E; cbn [length] in Hl; try discriminate; [reflexivity|].
  assert (V1 : vec_at (pre ++ x :: r) (length prem) = Ok x) by (rewrite <- Hp; apply vec_at_app).
  assert (V2 : vec_at full (length prem) = Ok y) by (rewrite E; apply vec_at_app).
  assert (V3 : upd (pre ++ x :: r) (length prem) (x + y) = pre ++ x + y :: r) by (rewrite <- Hp; apply upd_app).
  cbn [length seq mfold]. rewrite V1. cbn [obind]. rewrite V2. cbn [obind].
  rewrite V3. specialize (IH r (pre ++ [x + y]) (prem ++ [y]) full). rewrite !app_length in IH. cbn [length] in IH.
  replace (S (length prem)) with (length prem + 1)%nat by lia.
  replace (pre ++ x + y :: r) with ((pre ++ [x + y]) ++ r) by (rewrite <- app_assoc; reflexivity).
  rewrite IH; [|lia|lia|rewrite <- app_assoc; exact E]. rewrite <- app_assoc. reflexivity.
Qed.
Lemma add_cells_ok r my : length r = length my -> add_cells r my = Ok (padd r my).
Proof. intros H. exact (add_cells_loop my r [] [] my eq_refl H eq_refl). Qed.
Lemma add_rows_loop mine : forall rows pre prem full, length pre = length prem -> length rows = length mine -> full = prem ++ mine ->
  mfold (fun rows i => obind (vec_at rows i) (fun r => obind (vec_at full i) (fun my =>
    if negb (length r =? length my)%nat then Throw else obind (add_cells r my) (fun r' => Ok (upd rows i r')))))
    (seq (length prem) (length mine)) (pre ++ rows) =
  if list_eq_dec Nat.eq_dec (map (@length R) rows) (map (@length R) mine) then Ok (pre ++ radd rows mine) else Throw.
Proof.
  induction mine as [|my mine IH]; intros [|r rows] pre prem full Hp Hl E; cbn [length] in Hl; try discriminate; [reflexivity|].
  assert (V1 : vec_at (pre ++ r :: rows) (length prem) = Ok r) by (rewrite <- Hp; apply vec_at_app).
  assert (V2 : vec_at full (length prem) = Ok my) by (rewrite E; apply vec_at_app).
  assert (V3 : upd (pre ++ r :: rows) (length prem) (padd r my) = pre ++ padd r my :: rows) by (rewrite <- Hp; apply upd_app).
  cbn [length seq mfold]. rewrite V1. cbn [obind]. rewrite V2. cbn [obind].
  destruct (Nat.eqb_spec (length r) (length my)) as [H|H]; cbn [negb].
  - rewrite (add_cells_ok r my H). cbn [obind]. rewrite V3.
    specialize (IH rows (pre ++ [padd r my]) (prem ++ [my]) full). rewrite !app_length in IH. cbn [length] in IH.
    replace (S (length prem)) with (length prem + 1)%nat by lia.
    replace (pre ++ padd r my :: rows) with ((pre ++ [padd r my]) ++ rows) by (rewrite <- app_assoc; reflexivity).
    rewrite IH; [|lia|lia|rewrite <- app_assoc; exact E].
    destruct (list_eq_dec Nat.eq_dec (map (@length R) rows) (map (@length R) mine)) as [Q|Q];
    destruct (list_eq_dec Nat.eq_dec (map (@length R) (r :: rows)) (map (@length R) (my :: mine))) as [Q'|Q']; cbn [map] in Q'.
    + rewrite <- app_assoc. reflexivity.
    + exfalso. apply Q'. rewrite H, Q. reflexivity.
    + exfalso. apply Q. injection Q'. auto.
    + reflexivity.
  - cbn [obind]. destruct (list_eq_dec Nat.eq_dec (map (@length R) (r :: rows)) (map (@length R) (my :: mine))) as [Q'|Q']; [|reflexivity].
    exfalso. apply H. cbn [map] in Q'. injection Q'. auto.
Qed.
Lemma add_rows_eq rows mine : length rows = length mine ->
  add_rows rows mine = if list_eq_dec Nat.eq_dec (map (@length R) rows) (map (@length R) mine) then Ok (radd rows mine) else Throw.
Proof. intros H. exact (add_rows_loop mine rows [] [] mine eq_refl H eq_refl). Qed.

Lemma padd_length a b : length a = length b -> length (padd a b) = length a.
Proof. intros H. unfold padd. rewrite map_length, combine_length, H. lia. Qed.
Lemma padd_nth a : forall b j, length a = length b -> nth j (padd a b) 0 = nth j a 0 + nth j b 0.
Proof.
  induction a as [|x a IH]; intros [|y b] j H; try discriminate H.
  - destruct j; cbn; lra.
  - destruct j as [|j]; [reflexivity|]. cbn [nth]. unfold padd. cbn [combine map nth]. apply IH. cbn [length] in H. lia.
Qed.
Lemma radd_shape a : forall b, map (@length R) a = map (@length R) b -> map (@length R) (radd a b) = map (@length R) a.
Proof.
  induction a as [|x a IH]; intros [|y b] H; try discriminate H; [reflexivity|].
  cbn [map] in H. injection H as H1 H2. unfold radd. cbn [combine map fst snd]. rewrite padd_length by exact H1. f_equal. exact (IH b H2).
Qed.
Lemma radd_nth a : forall b i j, map (@length R) a = map (@length R) b -> nth j (nth i (radd a b) []) 0 = nth j (nth i a []) 0 + nth j (nth i b []) 0.
Proof.
  induction a as [|x a IH]; intros [|y b] i j H; try discriminate H.
  - destruct i, j; cbn; lra.
  - cbn [map] in H. injection H as H1 H2. destruct i as [|i]; cbn [nth].
    + unfold radd. cbn [combine map nth fst snd]. apply padd_nth. exact H1.
    + unfold radd. cbn [combine map nth]. apply IH. exact H2.
Qed.

Lemma zenmax_limit t z : zen_limit t z <-> zenmax t = z.
Proof. unfold zen_limit, zenmax. destruct (lt_zen t) as [y|]; split; [intros [H|[H _]]; congruence|intros ->; auto|intros [H|[_ ->]]; [discriminate|reflexivity]|intros <-; auto]. Qed.
Lemma addable_iff t u : addable t u <-> map (@length R) (lt_rows t) = map (@length R) (lt_rows u) /\ zenmax u = zenmax t.
Proof.
  unfold addable. split.
  - intros [H (z & A & B)]. apply zenmax_limit in A. apply zenmax_limit in B. split; congruence.
  - intros [H Z]. split; [exact H|]. exists (zenmax t). split; apply zenmax_limit; auto.
Qed.
Lemma addable_refl t : addable t t. Proof. apply addable_iff. auto. Qed.
Lemma addable_sym t u : addable t u -> addable u t. Proof. rewrite !addable_iff. intros [A B]. auto. Qed.
Lemma addable_trans t u v : addable t u -> addable u v -> addable t v. Proof. rewrite !addable_iff. intros [A B] [C D]. split; congruence. Qed.

(** One further table. *)
Lemma add_table_ok rows a b z0 zo t : zenmax (mk_lt rows a b zo) = z0 -> addable (mk_lt rows a b zo) t ->
  exists a' b', add_table z0 (rows, a, b) t = Ok (radd rows (lt_rows t), a', b') /\ (a' = a \/ a' = lt_start t) /\ a' <= a /\ a' <= lt_start t /\
  (b' = b \/ b' = lt_stop t) /\ b <= b' /\ lt_stop t <= b'.
Proof.
  intros Z Ad. apply addable_iff in Ad. destruct Ad as [Sh Ze]. cbn [lt_rows] in Sh. unfold add_table.
  destruct (Reqb_spec (zenmax t) z0) as [_|N]; [|congruence]. cbn [negb].
  assert (L : length rows = length (lt_rows t)) by (rewrite <- (map_length (@length R) rows), Sh, map_length; reflexivity).
  rewrite L, Nat.eqb_refl. cbn [negb]. rewrite (add_rows_eq _ _ L).
  destruct (list_eq_dec _ _ _) as [_|N]; [|contradiction]. cbn [obind].
  eexists. eexists. split; [reflexivity|].
  destruct (Rltb_spec (lt_start t) a); destruct (Rltb_spec b (lt_stop t)); repeat split; auto; lra.
Qed.
Lemma add_table_throw rows a b z0 zo t : zenmax (mk_lt rows a b zo) = z0 -> ~ addable (mk_lt rows a b zo) t -> add_table z0 (rows, a, b) t = Throw.
Proof.
  intros Z Ad. unfold add_table. destruct (Reqb_spec (zenmax t) z0) as [E|N]; cbn [negb]; [|reflexivity].
  destruct (Nat.eqb_spec (length rows) (length (lt_rows t))) as [L|N]; cbn [negb]; [|reflexivity].
  rewrite (add_rows_eq _ _ L). destruct (list_eq_dec _ _ _) as [Q|Q]; cbn [obind]; [|reflexivity].
  exfalso. apply Ad. apply addable_iff. cbn [lt_rows]. split; [exact Q|congruence].
Qed.

Lemma total_app l1 l2 : total (l1 ++ l2) = total l1 + total l2.
Proof. induction l1 as [|x l1 IH]; cbn [total fold_right app]; [unfold total; cbn; lra|]. fold (total (l1 ++ l2)). fold (total l1). rewrite IH. lra. Qed.
Lemma total_perm l l' : Permutation l l' -> total l = total l'.
Proof. induction 1; unfold total in *; cbn [fold_right] in *; lra. Qed.

(** The loop over the further tables. *)
Lemma sum_loop l : forall done s, is_sum done s -> (forall t, In t l -> addable s t) ->
  exists r, mfold (add_table (zenmax s)) l (lt_rows s, lt_start s, lt_stop s) = Ok r /\ is_sum (done ++ l) (write_table s r).
Proof.
  induction l as [|t l IH]; intros done s S A; cbn [mfold].
  - eexists. split; [reflexivity|]. rewrite app_nil_r. destruct s; exact S.
  - assert (As : addable s t) by (apply A; left; reflexivity).
    destruct (add_table_ok (lt_rows s) (lt_start s) (lt_stop s) (zenmax s) (lt_zen s) t) as (a & b & E & Ea & La & Lt & Eb & Lb & Lu).
    { destruct s; reflexivity. } { destruct s; exact As. }
    rewrite E. cbn [obind]. set (s' := mk_lt (radd (lt_rows s) (lt_rows t)) a b (lt_zen s)).
    assert (SS : addable s s').
    { apply addable_iff. cbn [s' lt_rows zenmax lt_zen]. apply addable_iff in As. split; [|reflexivity]. symmetry. apply radd_shape. apply As. }
    assert (S' : is_sum (done ++ [t]) s').
    { destruct S as (S1 & S2 & (S3 & S4) & (S5 & S6)). split; [|split; [|split]].
      - intros u [Hu|[<-|[]]]%in_app_or; [apply addable_trans with s; auto|apply addable_trans with s; [apply addable_sym; exact As|exact SS]].
      - intros i j. rewrite map_app, total_app, <- S2. unfold cell at 1. cbn [s' lt_rows]. apply addable_iff in As. rewrite radd_nth by apply As.
        cbn [map]. unfold total. cbn [fold_right]. unfold cell. lra.
      - rewrite map_app. split; [apply in_or_app; cbn [s' lt_start map]; destruct Ea as [->| ->]; [left; exact S3|right; left; reflexivity]|].
        cbn [s' lt_start]. intros u [Hu|[<-|[]]]%in_app_or; [specialize (S4 u Hu); lra|exact Lt].
      - rewrite map_app. split; [apply in_or_app; cbn [s' lt_stop map]; destruct Eb as [->| ->]; [left; exact S5|right; left; reflexivity]|].
        cbn [s' lt_stop]. intros u [Hu|[<-|[]]]%in_app_or; [specialize (S6 u Hu); lra|exact Lu]. }
    destruct (IH (done ++ [t]) s' S') as (r & E' & R').
    { intros u Hu. apply addable_trans with s; [apply addable_sym; exact SS|apply A; right; exact Hu]. }
    exists r. split; [exact E'|]. rewrite <- app_assoc in R'. cbn [app] in R'. destruct r as [[rr aa] bb]. exact R'.
Qed.
Lemma sum_loop_throw l : forall rows a b zo z0, zenmax (mk_lt rows a b zo) = z0 -> (exists t, In t l /\ ~ addable (mk_lt rows a b zo) t) ->
  (forall t u : lt_table, addable t u \/ ~ addable t u) -> mfold (add_table z0) l (rows, a, b) = Throw.
Proof.
  induction l as [|t l IH]; intros rows a b zo z0 Z (u & Hu & Nu) Dec; [destruct Hu|]. cbn [mfold].
  destruct (Dec (mk_lt rows a b zo) t) as [Y|N]; [|rewrite (add_table_throw rows a b z0 zo t Z N); reflexivity].
  destruct (add_table_ok rows a b z0 zo t Z Y) as (a' & b' & E & _). rewrite E. cbn [obind].
  assert (SS : addable (mk_lt rows a b zo) (mk_lt (radd rows (lt_rows t)) a' b' zo)).
  { apply addable_iff. cbn [lt_rows]. apply addable_iff in Y. split; [symmetry; apply radd_shape; apply Y|reflexivity]. }
  apply IH with zo; [exact Z| |exact Dec]. exists u. split.
  - destruct Hu as [<-|Hu]; [contradiction|exact Hu].
  - intros Q. apply Nu. apply addable_trans with (1 := SS). exact Q.
Qed.
Lemma addable_dec t u : {addable t u} + {~ addable t u}.
Proof.
  destruct (list_eq_dec Nat.eq_dec (map (@length R) (lt_rows t)) (map (@length R) (lt_rows u))) as [A|A]; [destruct (Req_EM_T (zenmax u) (zenmax t)) as [B|B]|];
  [left; apply addable_iff; auto|right; rewrite addable_iff; intros [_ C]; contradiction|right; rewrite addable_iff; intros [C _]; contradiction].
Qed.
Lemma is_sum_one t : is_sum [t] t.
Proof.
  split; [intros u [<-|[]]; apply addable_refl|split; [|split]].
  - intros i j. unfold total. cbn. lra.
  - split; [left; reflexivity|]. intros u [<-|[]]. lra.
  - split; [left; reflexivity|]. intros u [<-|[]]. lra.
Qed.
Lemma sum_tables_ok t0 l : (forall t, In t l -> addable t0 t) -> exists r, sum_tables (t0 :: l) = Ok r /\ is_sum (t0 :: l) (write_table t0 r).
Proof. intros H. destruct (sum_loop l [t0] t0 (is_sum_one t0) H) as (r & A & B). exists r. split; auto. Qed.
Lemma sum_tables_throw t0 l : (exists t, In t l /\ ~ addable t0 t) -> sum_tables (t0 :: l) = Throw.
Proof.
  intros H. apply sum_loop_throw with (lt_zen t0); [destruct t0; reflexivity|destruct t0; exact H|].
  intros t u. destruct (addable_dec t u); auto.
Qed.
Lemma sum_tables_inv t0 l : {r | sum_tables (t0 :: l) = Ok r /\ is_sum (t0 :: l) (write_table t0 r) /\ forall t, In t l -> addable t0 t} + {sum_tables (t0 :: l) = Throw /\ exists t, In t l /\ ~ addable t0 t}.
Proof.
  destruct (Forall_Exists_dec (addable t0) (addable_dec t0) l) as [F|X].
  - left. rewrite Forall_forall in F. pose proof (sum_tables_ok t0 l F) as H. destruct (sum_tables (t0 :: l)) as [r| |].
    + exists r. split; [reflexivity|]. split; [|exact F]. destruct H as (r' & E & S). injection E as ->. exact S.
    + exfalso. destruct H as (r & E & _). discriminate.
    + exfalso. destruct H as (r & E & _). discriminate.
  - right. apply Exists_exists in X. split; [apply sum_tables_throw; exact X|exact X].
Qed.

(** ** The bounds of the inclination bins *)
Lemma bounds_flat l : forall acc, fold_left (fun l (b : R * R) => l ++ [fst b; snd b]) l acc = acc ++ flat_map (fun b => [fst b; snd b]) l.
Proof. induction l as [|b l IH]; intros acc; cbn [fold_left flat_map]; [rewrite app_nil_r; reflexivity|]. rewrite IH, <- app_assoc. reflexivity. Qed.
Lemma flat_inj (l : list (R * R)) : forall l', flat_map (fun b => [fst b; snd b]) l = flat_map (fun b => [fst b; snd b]) l' -> l = l'.
Proof.
  induction l as [|[x y] l IH]; intros [|[x' y'] l'] H; try discriminate H; [reflexivity|].
  cbn [flat_map fst snd app] in H. injection H as -> -> H. f_equal. apply IH. exact H.
Qed.
Lemma bounds_loop l : forall m pre prem full fullm, length pre = length prem -> length l = length m -> full = pre ++ l -> fullm = prem ++ m ->
  mfold (fun _ j => obind (vec_get full j) (fun x => obind (vec_get fullm j) (fun y => if Reqb x y then Ok tt else Throw))) (seq (length prem) (length m)) tt =
  if list_eq_dec Req_EM_T l m then Ok tt else Throw.
Proof.
  induction l as [|x l IH]; intros [|y m] pre prem full fullm Hp Hl E Em; cbn [length] in Hl; try discriminate; [reflexivity|].
  assert (V1 : vec_get full (length prem) = Ok x) by (rewrite E, <- Hp; unfold vec_get; rewrite nth_error_app2, Nat.sub_diag by lia; reflexivity).
  assert (V2 : vec_get fullm (length prem) = Ok y) by (rewrite Em; unfold vec_get; rewrite nth_error_app2, Nat.sub_diag by lia; reflexivity).
  cbn [length seq mfold]. rewrite V1. cbn [obind]. rewrite V2. cbn [obind].
  destruct (Reqb_spec x y) as [H|H]; cbn [obind].
  - specialize (IH m (pre ++ [x]) (prem ++ [y]) full fullm). rewrite !app_length in IH. cbn [length] in IH.
    replace (S (length prem)) with (length prem + 1)%nat by lia.
    rewrite IH; [|lia|lia|rewrite <- app_assoc; exact E|rewrite <- app_assoc; exact Em].
    destruct (list_eq_dec Req_EM_T l m) as [Q|Q]; destruct (list_eq_dec Req_EM_T (x :: l) (y :: m)) as [Q'|Q']; try reflexivity; exfalso;
    [apply Q'; congruence|apply Q; injection Q'; auto].
  - destruct (list_eq_dec Req_EM_T (x :: l) (y :: m)) as [Q'|Q']; [exfalso; apply H; congruence|reflexivity].
Qed.
Lemma bounds_agree_eq m l : bounds_agree m l = if list_eq_dec Req_EM_T l m then Ok tt else Throw.
Proof.
  unfold bounds_agree. destruct (Nat.eqb_spec (length l) (length m)) as [H|H]; cbn [negb].
  - exact (bounds_loop l m [] [] l m eq_refl H eq_refl eq_refl).
  - destruct (list_eq_dec Req_EM_T l m) as [Q|Q]; [congruence|reflexivity].
Qed.
Lemma get_bounds_inj f g : get_bounds f = get_bounds g <-> lf_bounds f = lf_bounds g.
Proof. unfold get_bounds. rewrite !bounds_flat. cbn [app]. split; [apply flat_inj|intros ->; reflexivity]. Qed.
Lemma check_bounds_inv f0 l : {check_costheta_bounds (f0 :: l) = Ok tt /\ forall f, In f l -> lf_bounds f0 = lf_bounds f} + {check_costheta_bounds (f0 :: l) = Throw /\ exists f, In f l /\ lf_bounds f0 <> lf_bounds f}.
Proof.
  cbn [check_costheta_bounds]. induction l as [|f l IH]; [left; split; [reflexivity|intros f []]|].
  cbn [mfold]. rewrite bounds_agree_eq. destruct (list_eq_dec Req_EM_T (get_bounds f) (get_bounds f0)) as [Q|Q]; cbn [obind].
  - apply get_bounds_inj in Q. destruct IH as [[A B]|[A B]]; [left|right]; (split; [exact A|]).
    + intros g [<-|Hg]; [symmetry; exact Q|apply B; exact Hg].
    + destruct B as (g & Hg & Ng). exists g. split; [right; exact Hg|exact Ng].
  - right. split; [reflexivity|]. exists f. split; [left; reflexivity|]. intros H. apply Q. apply get_bounds_inj. auto.
Qed.

(** ** gtltsum *)
Definition writable (clobber : bool) (old : option lt_file) : Prop := clobber = true \/ old = None.
Lemma gtltsum_inv clobber f0 l old :
  (exists out, gtltsum clobber (f0 :: l) old = (Some out, Ok tt) /\ writable clobber old /\ (forall f, In f l -> compatible f0 f) /\
    lf_bounds out = lf_bounds f0 /\ is_sum (map lf_exp (f0 :: l)) (lf_exp out) /\ is_sum (map lf_wexp (f0 :: l)) (lf_wexp out)) \/
  (snd (gtltsum clobber (f0 :: l) old) = Throw /\ (~ writable clobber old \/ exists f, In f l /\ ~ compatible f0 f)).
Proof.
  unfold gtltsum, writable. destruct (check_bounds_inv f0 l) as [[-> B]|[-> (f & Hf & Nf)]].
  2: { right. split; [reflexivity|]. right. exists f. split; [exact Hf|]. intros (C & _). contradiction. }
  assert (W : (match old, clobber with Some _, false => False | _, _ => True end) -> clobber = true \/ old = None) by (destruct old, clobber; auto).
  assert (Main : forall P : Prop, (exists out,
    match sum_tables (map lf_exp (f0 :: l)) with
    | Throw => (Some f0, Throw)
    | UB => (Some f0, UB)
    | Ok s =>
      let f1 := mk_lf (lf_bounds f0) (write_table (lf_exp f0) s) (lf_wexp f0) in
      match sum_tables (map lf_wexp (f0 :: l)) with
      | Throw => (Some f1, Throw)
      | UB => (Some f1, UB)
      | Ok s2 => (Some (mk_lf (lf_bounds f0) (lf_exp f1) (write_table (lf_wexp f0) s2)), Ok tt)
      end
    end = (Some out, Ok tt) /\ (forall f, In f l -> compatible f0 f) /\
    lf_bounds out = lf_bounds f0 /\ is_sum (map lf_exp (f0 :: l)) (lf_exp out) /\ is_sum (map lf_wexp (f0 :: l)) (lf_wexp out)) \/
    (snd (match sum_tables (map lf_exp (f0 :: l)) with
    | Throw => (Some f0, Throw)
    | UB => (Some f0, UB)
    | Ok s =>
      let f1 := mk_lf (lf_bounds f0) (write_table (lf_exp f0) s) (lf_wexp f0) in
      match sum_tables (map lf_wexp (f0 :: l)) with
      | Throw => (Some f1, Throw)
      | UB => (Some f1, UB)
      | Ok s2 => (Some (mk_lf (lf_bounds f0) (lf_exp f1) (write_table (lf_wexp f0) s2)), Ok tt)
      end
    end) = Throw /\ (P \/ exists f, In f l /\ ~ compatible f0 f))).
  { intros P. cbn [map]. destruct (sum_tables_inv (lf_exp f0) (map lf_exp l)) as [(r & -> & S & A)|[-> (t & Ht & Nt)]].
    - destruct (sum_tables_inv (lf_wexp f0) (map lf_wexp l)) as [(r2 & -> & S2 & A2)|[-> (t & Ht & Nt)]].
      + left. eexists. split; [reflexivity|]. split; [|split; [reflexivity|split; [exact S|exact S2]]].
        intros f Hf. split; [apply B; exact Hf|]. split; [apply A|apply A2]; apply in_map; exact Hf.
      + right. split; [reflexivity|]. right. apply in_map_iff in Ht. destruct Ht as (f & <- & Hf). exists f. split; [exact Hf|]. intros (_ & _ & C). contradiction.
    - right. split; [reflexivity|]. right. apply in_map_iff in Ht. destruct Ht as (f & <- & Hf). exists f. split; [exact Hf|]. intros (_ & C & _). contradiction. }
  destruct old as [o|]; [destruct clobber|].
  - destruct (Main (~ (true = true \/ Some o = None))) as [(out & E & H)|H]; [left; exists out; split; [exact E|split; [left; reflexivity|exact H]]|right; exact H].
  - right. split; [reflexivity|]. left. intros [C|C]; discriminate.
  - destruct (Main (~ (clobber = true \/ @None lt_file = None))) as [(out & E & H)|H]; [left; exists out; split; [exact E|split; [right; reflexivity|exact H]]|right; exact H].
Qed.

Lemma compatible_refl f : compatible f f. Proof. split; [reflexivity|split; apply addable_refl]. Qed.
Lemma compatible_sym f g : compatible f g -> compatible g f. Proof. intros (A & B & C). split; [auto|split; apply addable_sym; assumption]. Qed.
Lemma compatible_trans f g h : compatible f g -> compatible g h -> compatible f h.
Proof. intros (A & B & C) (A' & B' & C'). split; [congruence|split; eapply addable_trans; eassumption]. Qed.

Lemma rows_ext (a b : list (list R)) : map (@length R) a = map (@length R) b -> (forall i j, nth j (nth i a []) 0 = nth j (nth i b []) 0) -> a = b.
Proof.
  revert b. induction a as [|x a IH]; intros [|y b] H N; try discriminate H; [reflexivity|]. cbn [map] in H. injection H as H1 H2. f_equal.
  - apply nth_ext with 0 0; [exact H1|]. intros j _. exact (N 0%nat j).
  - apply IH; [exact H2|]. intros i j. exact (N (S i) j).
Qed.
Lemma is_sum_unique ts ts' s s' : ts <> [] -> Permutation ts ts' -> is_sum ts s -> is_sum ts' s' -> lt_rows s = lt_rows s' /\ lt_start s = lt_start s' /\ lt_stop s = lt_stop s'.
Proof.
  intros N P (A & B & (C1 & C2) & (D1 & D2)) (A' & B' & (C1' & C2') & (D1' & D2')).
  split; [|split].
  - destruct ts as [|t ts]; [congruence|]. apply rows_ext.
    + pose proof (A t (or_introl eq_refl)) as H. pose proof (A' t (Permutation_in t P (or_introl eq_refl))) as H'. apply addable_iff in H. apply addable_iff in H'. destruct H, H'. congruence.
    + intros i j. specialize (B i j). specialize (B' i j). unfold cell at 1 in B. unfold cell at 1 in B'. rewrite B, B'. apply total_perm, Permutation_map, P.
  - apply in_map_iff in C1. destruct C1 as (t & E & Ht). apply in_map_iff in C1'. destruct C1' as (t' & E' & Ht').
    pose proof (C2 t' (Permutation_in t' (Permutation_sym P) Ht')). pose proof (C2' t (Permutation_in t P Ht)). lra.
  - apply in_map_iff in D1. destruct D1 as (t & E & Ht). apply in_map_iff in D1'. destruct D1' as (t' & E' & Ht').
    pose proof (D2 t' (Permutation_in t' (Permutation_sym P) Ht')). pose proof (D2' t (Permutation_in t P Ht)). lra.
Qed.

(** Sums of sums: the output can be used as an input. *)
Lemma mfold_unit_app {A} (f : unit -> A -> outcome unit) l1 l2 : mfold f (l1 ++ l2) tt = obind (mfold f l1 tt) (fun _ => mfold f l2 tt).
Proof. rewrite mfold_app'. destruct (mfold f l1 tt) as [[]| |]; reflexivity. Qed.
Lemma sum_tables_app t0 l gs s : sum_tables (t0 :: l) = Ok s -> sum_tables (t0 :: l ++ gs) = sum_tables (write_table t0 s :: gs).
Proof. intros H. cbn [sum_tables] in *. rewrite mfold_app', H. cbn [obind]. destruct s as [[rows a] b]. reflexivity. Qed.
Lemma gtltsum_chain clobber f0 l gs old old' out : gtltsum clobber (f0 :: l) old = (Some out, Ok tt) ->
  snd (gtltsum clobber (out :: gs) old') = snd (gtltsum clobber (f0 :: l ++ gs) old') /\
  (snd (gtltsum clobber (out :: gs) old') = Ok tt -> gtltsum clobber (out :: gs) old' = gtltsum clobber (f0 :: l ++ gs) old').
Proof.
  intros H. assert (K : check_costheta_bounds (f0 :: l) = Ok tt /\ exists s s2, sum_tables (map lf_exp (f0 :: l)) = Ok s /\ sum_tables (map lf_wexp (f0 :: l)) = Ok s2 /\
    out = mk_lf (lf_bounds f0) (write_table (lf_exp f0) s) (write_table (lf_wexp f0) s2)).
  { unfold gtltsum in H. destruct (check_costheta_bounds (f0 :: l)) as [[]| |]; [|discriminate H|discriminate H]. split; [reflexivity|].
    destruct old as [o|]; [destruct clobber; [|discriminate H]|];
    (destruct (sum_tables (map lf_exp (f0 :: l))) as [s| |]; [|discriminate H|discriminate H];
     destruct (sum_tables (map lf_wexp (f0 :: l))) as [s2| |]; [|discriminate H|discriminate H];
     exists s, s2; repeat split; injection H as <-; reflexivity). }
  destruct K as (C & s & s2 & S1 & S2 & ->).
  set (out := mk_lf _ _ _). assert (C' : check_costheta_bounds (f0 :: l ++ gs) = check_costheta_bounds (out :: gs)).
  { cbn [check_costheta_bounds] in *. rewrite mfold_unit_app, C. reflexivity. }
  cbn [map] in S1, S2. unfold gtltsum. rewrite C'. destruct (check_costheta_bounds (out :: gs)) as [[]| |]; [|split; [reflexivity|discriminate]|split; [reflexivity|discriminate]].
  cbn [map]. rewrite !map_app. rewrite (sum_tables_app _ _ _ _ S1), (sum_tables_app _ _ _ _ S2). cbn [lf_exp lf_wexp lf_bounds out].
  destruct old' as [o|]; [destruct clobber; [|split; [reflexivity|discriminate]]|];
  (destruct (sum_tables (write_table (lf_exp f0) s :: map lf_exp gs)) as [r| |]; [|split; [reflexivity|discriminate]|split; [reflexivity|discriminate]];
   destruct (sum_tables (write_table (lf_wexp f0) s2 :: map lf_wexp gs)) as [r2| |]; [|split; [reflexivity|discriminate]|split; [reflexivity|discriminate]];
   destruct s as [[? ?] ?], s2 as [[? ?] ?], r as [[? ?] ?], r2 as [[? ?] ?]; split; [reflexivity|intros _; reflexivity]).
Qed.

(** ** gtsrcprob *)
Lemma mapM_inv {A B} (g : A -> outcome B) l : forall acc out, mfold (fun out a => obind (g a) (fun r => Ok (out ++ [r]))) l acc = Ok out ->
  exists o, out = acc ++ o /\ Forall2 (fun a r => g a = Ok r) l o.
Proof.
  induction l as [|a l IH]; intros acc out H; cbn [mfold] in H.
  - injection H as <-. exists []. rewrite app_nil_r. auto.
  - destruct (g a) as [r| |] eqn:E; cbn [obind] in H; try discriminate. destruct (IH _ _ H) as (o & -> & F). exists (r :: o). rewrite <- app_assoc. split; [reflexivity|constructor; auto].
Qed.
Lemma mapM_ok {A B} (g : A -> outcome B) l : (forall a, In a l -> exists r, g a = Ok r) -> forall acc, exists out, mfold (fun out a => obind (g a) (fun r => Ok (out ++ [r]))) l acc = Ok out.
Proof.
  induction l as [|a l IH]; intros H acc; cbn [mfold]; [eexists; reflexivity|]. destruct (H a (or_introl eq_refl)) as (r & ->). cbn [obind]. apply IH. intros b Hb. apply H. right. exact Hb.
Qed.
Lemma Forall2_nth {A B} (P : A -> B -> Prop) l l' : Forall2 P l l' -> forall i a b, nth_error l i = Some a -> nth_error l' i = Some b -> P a b.
Proof. induction 1; intros [|i] a b; cbn [nth_error]; intros E1 E2; try discriminate; [injection E1 as <-; injection E2 as <-; assumption|eauto]. Qed.
Lemma Forall2_len {A B} (P : A -> B -> Prop) l l' : Forall2 P l l' -> length l = length l'.
Proof. induction 1; cbn [length]; auto. Qed.
Lemma nth_error_combine_seq {A} (l : list A) : forall k i a, nth_error l i = Some a -> nth_error (combine (seq k (length l)) l) i = Some ((k + i)%nat, a).
Proof.
  induction l as [|b l IH]; intros k [|i] a H; try discriminate H; cbn [length seq combine nth_error] in *.
  - rewrite Nat.add_0_r. congruence.
  - rewrite (IH (S k) i a H). do 2 f_equal. lia.
Qed.

Section ProbProofs.
Variable v : string -> R.
Definition sets (l : list string) (r : list (string * R)) : outcome (list (string * R)) := mfold (fun r n => row_set r n (v n)) l r.
Lemma row_set_in r n x r' c y : row_set r n x = Ok r' -> In (c, y) r' <-> (c = toLower n /\ y = x) \/ (c <> toLower n /\ In (c, y) r).
Proof.
  unfold row_set. destruct (existsb _ r) eqn:X; [|discriminate]. intros H. injection H as <-. rewrite in_map_iff. split.
  - intros ([c' y'] & E & Hin). cbn [fst] in E. destruct (String.eqb_spec c' (toLower n)) as [Q|Q]; injection E as <- <-; [left; auto|right; auto].
  - intros [[-> ->]|[N Hin]].
    + apply existsb_exists in X. destruct X as ([c' y'] & Hin & Q). exists (c', y'). cbn [fst] in *. rewrite Q. auto.
    + exists (c, y). cbn [fst]. destruct (String.eqb_spec c (toLower n)); [contradiction|auto].
Qed.
Lemma row_set_keys r n x r' : row_set r n x = Ok r' -> map fst r' = map fst r.
Proof.
  unfold row_set. destruct (existsb _ r); [|discriminate]. intros H. injection H as <-. rewrite map_map. apply map_ext. intros [c y]. cbn [fst].
  destruct (String.eqb_spec c (toLower n)); cbn [fst]; congruence.
Qed.
Lemma sets_other l : forall r r' c y, sets l r = Ok r' -> ~ In c (map toLower l) -> In (c, y) r' <-> In (c, y) r.
Proof.
  induction l as [|n l IH]; intros r r' c y H N; cbn [sets mfold] in H; [injection H as <-; reflexivity|].
  destruct (row_set r n (v n)) as [r1| |] eqn:E; cbn [obind] in H; try discriminate. cbn [map In] in N.
  rewrite (IH r1 r' c y H) by tauto. rewrite (row_set_in _ _ _ _ c y E). split; [intros [[-> _]|[_ K]]; [exfalso; tauto|exact K]|intros K; right; split; [intros ->; tauto|exact K]].
Qed.
Lemma sets_keep l : forall r r' n, sets l r = Ok r' -> (forall m, In m l -> toLower m = toLower n -> m = n) -> holds r (toLower n) (v n) -> holds r' (toLower n) (v n).
Proof.
  induction l as [|m l IH]; intros r r' n H U K; cbn [sets mfold] in H; [injection H as <-; exact K|].
  destruct (row_set r m (v m)) as [r1| |] eqn:E; cbn [obind] in H; try discriminate. apply (IH r1 r' n H).
  - intros m' Hm'. apply U. right. exact Hm'.
  - intros y. rewrite (row_set_in _ _ _ _ (toLower n) y E). destruct (string_dec (toLower n) (toLower m)) as [Q|Q].
    + rewrite <- (U m (or_introl eq_refl) (eq_sym Q)) in *. tauto.
    + rewrite (K y). tauto.
Qed.
Lemma sets_value l : forall r r' n, sets l r = Ok r' -> In n l -> (forall m, In m l -> toLower m = toLower n -> m = n) -> holds r' (toLower n) (v n).
Proof.
  induction l as [|m l IH]; intros r r' n H Hn U; [destruct Hn|]. cbn [sets mfold] in H.
  destruct (row_set r m (v m)) as [r1| |] eqn:E; cbn [obind] in H; try discriminate.
  destruct (string_dec m n) as [->|Q].
  - apply (sets_keep l r1 r' n H); [intros m' Hm'; apply U; right; exact Hm'|]. intros y. rewrite (row_set_in _ _ _ _ (toLower n) y E). tauto.
  - apply (IH r1 r' n H); [destruct Hn; [contradiction|assumption]|intros m' Hm'; apply U; right; exact Hm'].
Qed.
Lemma sets_ok l : forall r, (forall n, In n l -> In (toLower n) (map fst r)) -> exists r', sets l r = Ok r'.
Proof.
  induction l as [|n l IH]; intros r H; cbn [sets mfold]; [eexists; reflexivity|].
  destruct (row_set r n (v n)) as [r1| |] eqn:E; cbn [obind].
  - apply IH. intros m Hm. rewrite (row_set_keys _ _ _ _ E). apply H. right. exact Hm.
  - exfalso. unfold row_set in E. destruct (existsb _ r) eqn:X; [discriminate|]. specialize (H n (or_introl eq_refl)). apply in_map_iff in H. destruct H as (p & Q & Hp).
    enough (T : existsb (fun p => String.eqb (fst p) (toLower n)) r = true) by congruence. apply existsb_exists. exists p. split; [exact Hp|]. apply String.eqb_eq. exact Q.
  - exfalso. unfold row_set in E. destruct (existsb _ r); discriminate.
Qed.
End ProbProofs.

Section ProbProofs2.
Context {E : Type} (accept : E -> bool) (model : list (string * (E -> R))).
Lemma fold_total l : forall acc, fold_left (fun t (p : string * R) => t + snd p) l acc = acc + total (map snd l).
Proof. induction l as [|p l IH]; intros acc; cbn [fold_left map]; [unfold total; cbn; lra|]. rewrite IH. unfold total. cbn [fold_right]. lra. Qed.
Lemma norm_eq e : fold_left (fun t (p : string * R) => t + snd p) (map (fun s => (fst s, snd s e)) model) 0 = all_sources model e.
Proof. rewrite fold_total, map_map. unfold all_sources. cbn [snd]. lra. Qed.
Lemma density_eq e n f : NoDup (map fst model) -> In (n, f) model -> density (map (fun s => (fst s, snd s e)) model) n = f e.
Proof.
  intros ND H. unfold density. induction model as [|[m g] l IH]; [destruct H|]. cbn [map find fst snd]. cbn [map] in ND. inversion ND as [|? ? N1 N2]; subst.
  destruct (String.eqb_spec m n) as [->|Q]; cbn [snd].
  - destruct H as [H|H]; [congruence|]. exfalso. apply N1. apply in_map_iff. exists (n, f). auto.
  - apply IH; [exact N2|]. destruct H as [H|H]; [congruence|exact H].
Qed.
Lemma read_all (rows : list (evrow E)) : (forall r, In r rows -> accept (snd r) = true) -> read_events E accept rows = map snd rows.
Proof.
  intros H. unfold read_events. induction rows as [|r rows IH]; [reflexivity|]. cbn [map filter]. rewrite (H r (or_introl eq_refl)). f_equal. apply IH. intros q Hq. apply H. right. exact Hq.
Qed.
(** One row: its event is the [j]-th one that was read. *)
Lemma write_row_inv srclist events j r r' e : srclist <> [] -> model <> [] -> nth_error events j = Some e -> write_row E model srclist events (j, r) = Ok r' ->
  all_sources model e <> 0 /\ sets (fun n => density (map (fun s => (fst s, snd s e)) model) n / all_sources model e) srclist r = Ok r'.
Proof.
  intros Ns Nm He. unfold write_row. cbn [fst snd]. unfold vec_at. rewrite He. destruct model as [|s0 l] eqn:Em; [congruence|]. cbn [obind]. rewrite <- Em. rewrite norm_eq.
  destruct (Reqb_spec (all_sources model e) 0) as [Z|Z].
  - destruct srclist as [|n srclist]; [congruence|]. cbn [mfold obind]. discriminate.
  - intros H. split; [exact Z|exact H].
Qed.
Lemma write_row_ok srclist events j r e : model <> [] -> nth_error events j = Some e -> all_sources model e <> 0 ->
  write_row E model srclist events (j, r) = sets (fun n => density (map (fun s => (fst s, snd s e)) model) n / all_sources model e) srclist r.
Proof.
  intros Nm He Z. unfold write_row. cbn [fst snd]. unfold vec_at. rewrite He. destruct model as [|s0 l] eqn:Em; [congruence|]. cbn [obind]. rewrite <- Em in *. rewrite norm_eq.
  destruct (Reqb_spec (all_sources model e) 0) as [Q|_]; [contradiction|reflexivity].
Qed.
Lemma append_inv columns srclist : forall acc added, (forall c, In c acc -> In c (map toLower srclist) \/ True) ->
  mfold (fun added n => let c := toLower n in if existsb (String.eqb c) columns then Ok added else if existsb (String.eqb c) added then Throw else Ok (added ++ [c])) srclist acc = Ok added ->
  (forall c, In c added <-> In c acc \/ (In c (map toLower srclist) /\ ~ In c columns)).
Proof.
  induction srclist as [|n l IH]; intros acc added _ H c; cbn [mfold] in H; [injection H as <-; cbn [map In]; tauto|]. cbv zeta in H.
  assert (Ex : forall x (k : list string), existsb (String.eqb x) k = true <-> In x k).
  { intros x k. rewrite existsb_exists. split; [intros (y & Hy & Q); apply String.eqb_eq in Q; subst; exact Hy|intros Hx; exists x; split; [exact Hx|apply String.eqb_refl]]. }
  destruct (existsb (String.eqb (toLower n)) columns) eqn:A.
  - apply Ex in A. rewrite (IH acc added (fun _ _ => or_intror I) H c). cbn [map In]. split; [tauto|]. intros [K|[[<-|K] N]]; tauto.
  - destruct (existsb (String.eqb (toLower n)) acc) eqn:B; [discriminate|]. cbn [obind] in H.
    rewrite (IH (acc ++ [toLower n]) added (fun _ _ => or_intror I) H c). rewrite in_app_iff. cbn [map In].
    assert (N : ~ In (toLower n) columns) by (rewrite <- Ex, A; discriminate). split; [intros [[K|[<-|[]]]|K]; tauto|]. intros [K|[[<-|K] N']]; tauto.
Qed.
Lemma append_ok columns srclist : NoDup (map toLower srclist) -> forall acc, (forall c, In c acc -> ~ In c (map toLower srclist)) ->
  exists added, mfold (fun added n => let c := toLower n in if existsb (String.eqb c) columns then Ok added else if existsb (String.eqb c) added then Throw else Ok (added ++ [c])) srclist acc = Ok added.
Proof.
  induction srclist as [|n l IH]; intros ND acc Hd; cbn [mfold]; [eexists; reflexivity|]. cbv zeta. cbn [map] in ND. inversion ND as [|? ? N1 N2]; subst.
  destruct (existsb (String.eqb (toLower n)) columns); cbn [obind].
  - apply IH; [exact N2|]. intros c Hc Hc'. apply (Hd c Hc). right. exact Hc'.
  - destruct (existsb (String.eqb (toLower n)) acc) eqn:B; cbn [obind].
    + exfalso. apply existsb_exists in B. destruct B as (y & Hy & Q). apply String.eqb_eq in Q. subst y. apply (Hd _ Hy). left. reflexivity.
    + apply IH; [exact N2|]. intros c Hc. apply in_app_or in Hc. destruct Hc as [Hc|[<-|[]]]; [intros Hc'; apply (Hd c Hc); right; exact Hc'|exact N1].
Qed.
Lemma gtsrcprob_rows columns lf rows out : gtsrcprob E accept model columns lf rows = Ok out ->
  exists added, append_columns columns (source_list E model lf) = Ok added /\ length out = length rows /\
  forall j r row, nth_error rows j = Some r -> nth_error out j = Some row ->
    write_row E model (source_list E model lf) (read_events E accept rows) (j, fst r ++ map (fun c => (c, 0)) added) = Ok row.
Proof.
  unfold gtsrcprob. destruct (append_columns columns _) as [added| |]; cbn [obind]; try discriminate. intros H. exists added. split; [reflexivity|].
  destruct (mapM_inv _ _ _ _ H) as (o & -> & F). cbn [app]. split.
  - rewrite <- (Forall2_len _ _ _ F), combine_length, seq_length, map_length. apply Nat.min_id.
  - intros j r row Hr Hrow. refine (Forall2_nth _ _ _ F j _ row _ Hrow).
    pose proof (nth_error_combine_seq (map (fun r : evrow E => fst r ++ map (fun c => (c, 0)) added) rows) 0 j (fst r ++ map (fun c => (c, 0)) added)) as K.
    rewrite map_length in K. apply K. rewrite nth_error_map, Hr. reflexivity.
Qed.
Lemma total_nonneg l : (forall x, In x l -> 0 <= x) -> 0 <= total l.
Proof. induction l as [|x l IH]; intros H; unfold total; cbn [fold_right]; [lra|]. fold (total l). pose proof (H x (or_introl eq_refl)). assert (0 <= total l) by (apply IH; intros y Hy; apply H; right; exact Hy). lra. Qed.
Lemma total_ge l x : (forall y, In y l -> 0 <= y) -> In x l -> x <= total l.
Proof.
  induction l as [|y l IH]; intros H Hx; [destruct Hx|]. unfold total; cbn [fold_right]; fold (total l).
  pose proof (H y (or_introl eq_refl)). assert (N : 0 <= total l) by (apply total_nonneg; intros z Hz; apply H; right; exact Hz).
  destruct Hx as [<-|Hx]; [lra|]. assert (x <= total l) by (apply IH; [intros z Hz; apply H; right; exact Hz|exact Hx]). lra.
Qed.
Lemma total_div l d : total (map (fun x => x / d) l) = total l / d.
Proof. induction l as [|x l IH]; unfold total; cbn [map fold_right]; [unfold Rdiv; ring|]. fold (total (map (fun x => x / d) l)). fold (total l). rewrite IH. unfold Rdiv. ring. Qed.
End ProbProofs2.

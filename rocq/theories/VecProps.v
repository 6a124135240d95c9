(** Property C08: vector helpers. *)
From Coq Require Import Ring_theory ZArithRing InitialRing.
From Verif Require Import Base VecModel VecSpec VecProofs.

(** The three element-wise operations: on equal lengths every output element is
    the operation on the corresponding inputs, whether or not the output is one
    of the inputs; nothing else is written. *)
Theorem C08_elementwise :
  forall (T : Type) (add mul sub : T -> T -> T) (e : store T) a b o f1 f2,
    length (e a) = length (e b) -> length (e a) = length (e o) ->
    (exists e', vectorAdd add mul e a b o f1 f2 = Ok (e', false) /\
       e' o = map2 (fun x y => add (mul f1 x) (mul f2 y)) (e a) (e b) /\ forall k, k <> o -> e' k = e k) /\
    (exists e', vectorMultiply mul e a b o = Ok (e', false) /\
       e' o = map2 mul (e a) (e b) /\ forall k, k <> o -> e' k = e k) /\
    (exists e', vectorSubtract sub e a b o = Ok (e', false) /\
       e' o = map2 sub (e a) (e b) /\ forall k, k <> o -> e' k = e k).
Proof.
  intros T add mul sub e a b o f1 f2 H1 H2.
  exact (conj (zip_call_ok _ e a b o H1 H2) (conj (zip_call_ok _ e a b o H1 H2) (zip_call_ok _ e a b o H1 H2))).
Qed.
Print Assumptions C08_elementwise.

(** On unequal lengths they throw and change nothing. *)
Theorem C08_size_mismatch_throws :
  forall (T : Type) (add mul sub : T -> T -> T) (e : store T) a b o f1 f2,
    length (e a) <> length (e b) \/ length (e a) <> length (e o) ->
    vectorAdd add mul e a b o f1 f2 = Ok (e, true) /\
    vectorMultiply mul e a b o = Ok (e, true) /\ vectorSubtract sub e a b o = Ok (e, true).
Proof.
  intros T add mul sub e a b o f1 f2 H.
  exact (conj (zip_call_throw _ e a b o H) (conj (zip_call_throw _ e a b o H) (zip_call_throw _ e a b o H))).
Qed.
Print Assumptions C08_size_mismatch_throws.

Theorem C08_scalar :
  forall (T D : Type) (mulS : T -> D -> T) (e : store T) o s,
    exists e', multiplyByScalar mulS e o s = Ok e' /\
      e' o = map (fun x => mulS x s) (e o) /\ forall k, k <> o -> e' k = e k.
Proof. intros T D mulS e o s. exact (scale_ok (fun x => mulS x s) e o). Qed.
Print Assumptions C08_scalar.

Theorem C08_set_value :
  forall (T : Type) (v : T) (e : store T) o,
    exists e', setVectorValue v e o = Ok e' /\
      e' o = map (fun _ => v) (e o) /\ forall k, k <> o -> e' k = e k.
Proof. intros T v e o. exact (scale_ok (fun _ => v) e o). Qed.
Print Assumptions C08_set_value.

(** Inner products of two, three and four vectors: the in-order accumulation of
    the element products, or an exception when the lengths differ. *)
Theorem C08_inner_products :
  forall (T D : Type) (zero : D) (acc : D -> T -> D) (conv : D -> T) (mul : T -> T -> T) l1 l2 l3 l4,
    innerProduct2 zero acc conv mul l1 l2 =
      (if length l1 =? length l2 then Ok (conv (fold_left acc (map2 mul l1 l2) zero)) else Throw) /\
    innerProduct3 zero acc conv mul l1 l2 l3 =
      (if (length l1 =? length l2) && (length l1 =? length l3)
       then Ok (conv (fold_left acc (map2 mul (map2 mul l1 l2) l3) zero)) else Throw) /\
    innerProduct4 zero acc conv mul l1 l2 l3 l4 =
      (if (length l1 =? length l2) && (length l1 =? length l3) && (length l1 =? length l4)
       then Ok (conv (fold_left acc (map2 mul (map2 mul (map2 mul l1 l2) l3) l4) zero)) else Throw).
Proof.
  intros. unfold innerProduct2, innerProduct3, innerProduct4.
  destruct (Nat.eqb_spec (length l1) (length l2)); simpl; auto.
  destruct (Nat.eqb_spec (length l1) (length l3)); simpl.
  - destruct (Nat.eqb_spec (length l1) (length l4)); simpl;
      rewrite ip2_ok, ip3_ok, ?ip4_ok by auto; auto.
  - rewrite ip2_ok by auto. auto.
Qed.
Print Assumptions C08_inner_products.

(** Symmetric whenever multiplication commutes (true of IEEE floats). *)
Theorem C08_inner_product_symmetric :
  forall (T D : Type) (zero : D) (acc : D -> T -> D) (conv : D -> T) (mul : T -> T -> T) l1 l2,
    (forall a b, mul a b = mul b a) ->
    innerProduct2 zero acc conv mul l1 l2 = innerProduct2 zero acc conv mul l2 l1.
Proof.
  intros T D zero acc conv mul l1 l2 H. pose proof C08_inner_products as P.
  rewrite (proj1 (P T D zero acc conv mul l1 l2 l1 l1)), (proj1 (P T D zero acc conv mul l2 l1 l1 l1)).
  rewrite (map2_comm mul H l1 l2), Nat.eqb_sym. reflexivity.
Qed.
Print Assumptions C08_inner_product_symmetric.

(** Over a ring: bilinear, and subtraction undoes addition. *)
Theorem C08_inner_product_bilinear :
  forall (T : Type) (zero one : T) (add mul sub : T -> T -> T) (opp : T -> T),
    ring_theory zero one add mul sub opp (@eq T) ->
    forall c d l1 l2 l3 v w, length l1 = length l2 -> length l1 = length l3 ->
      innerProduct2 zero add (fun x => x) mul l1 l2 = Ok v ->
      innerProduct2 zero add (fun x => x) mul l1 l3 = Ok w ->
      innerProduct2 zero add (fun x => x) mul l1 (map2 (fun x y => add (mul c x) (mul d y)) l2 l3)
      = Ok (add (mul c v) (mul d w)).
Proof.
  intros T zero one add mul sub opp rth c d l1 l2 l3 v w H H' E F.
  unfold innerProduct2 in *. rewrite map2_length by congruence.
  rewrite <- H, Nat.eqb_refl in *. rewrite <- H', Nat.eqb_refl in *. simpl in *.
  rewrite ip2_ok in * by (auto; rewrite map2_length; congruence). simpl in *.
  injection E as <-. injection F as <-.
  now rewrite (ip_bilinear zero one add mul sub opp rth).
Qed.
Print Assumptions C08_inner_product_bilinear.

Theorem C08_subtract_undoes_add :
  forall (T : Type) (zero one : T) (add mul sub : T -> T -> T) (opp : T -> T),
    ring_theory zero one add mul sub opp (@eq T) ->
    forall (e : store T) a b, a <> b -> length (e a) = length (e b) ->
      exists e1 e2, vectorAdd add mul e a b a one one = Ok (e1, false) /\
        vectorSubtract sub e1 a b a = Ok (e2, false) /\ forall k, e2 k = e k.
Proof.
  intros T zero one add mul sub opp rth e a b N H.
  destruct (zip_call_ok (fun x y => add (mul one x) (mul one y)) e a b a H eq_refl) as (e1 & E1 & R1 & K1).
  assert (Eb : e1 b = e b) by (apply K1; auto).
  assert (L1 : length (e1 a) = length (e a)) by (rewrite R1; apply map2_length; auto).
  destruct (zip_call_ok sub e1 a b a ltac:(congruence) eq_refl) as (e2 & E2 & R2 & K2).
  exists e1, e2. split; [exact E1|]. split; [exact E2|]. intros k.
  destruct (Nat.eq_dec k a) as [->|Nk].
  - rewrite R2, R1, Eb. apply (sub_add_id zero one add mul sub opp rth). auto.
  - rewrite K2, K1; auto.
Qed.
Print Assumptions C08_subtract_undoes_add.

(** reshapeVector: rows of the requested shape whose concatenation is the input. *)
Theorem C08_reshape :
  forall (T : Type) (l : list T) n_i n_j,
    (length l = n_i * n_j -> exists rs, reshapeVector l n_i n_j = Ok rs /\ length rs = n_i /\
        Forall (fun r => length r = n_j) rs /\ concat rs = l) /\
    (length l <> n_i * n_j -> reshapeVector l n_i n_j = Throw).
Proof.
  intros T l n_i n_j. unfold reshapeVector. split; intros H.
  - rewrite (proj2 (Nat.eqb_eq _ _) H). simpl. exact (read_rows_ok l n_j n_i 0 (eq_sym H)).
  - now rewrite (proj2 (Nat.eqb_neq _ _) H).
Qed.
Print Assumptions C08_reshape.

Example C08_case :
  let e : store Z := fun k => match k with 0 => [1; 2; 3]%Z | 1 => [10; 20; 30]%Z | _ => [] end in
  match vectorAdd Z.add Z.mul e 0 1 0 1%Z 1%Z with
  | Ok (e', false) => e' 0 = [11; 22; 33]%Z /\ e' 1 = [10; 20; 30]%Z
  | _ => False
  end /\ length (e 0) = length (e 1) /\
  innerProduct2 0%Z Z.add (fun x => x) Z.mul [1; 2; 3]%Z [4; 5; 6]%Z = Ok 32%Z /\
  ring_theory 0%Z 1%Z Z.add Z.mul Z.sub Z.opp (@eq Z) /\
  reshapeVector [1; 2; 3; 4; 5; 6] 2 3 = Ok [[1; 2; 3]; [4; 5; 6]].
Proof. repeat split; apply Zth. Qed.

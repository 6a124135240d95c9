(** Properties C01-C03 and C43: SparseVector. *)
From Coq Require Import Sorted.
From Verif Require Import Base SparseModel SparseSpec SparseProofs.

(** C01. For every element type with an equality test that never identifies
    different values, every null value and every history of calls (without a
    shrinking resize) no call is undefined, and afterwards every object reads
    exactly like the dense vector subjected to the same calls, has its size,
    and keeps its indices strictly increasing and in range. *)
Theorem C01_sparse_reads_like_dense :
  forall (T : Type) (eqb : T -> T -> bool),
    (forall a b, eqb a b = true -> a = b) ->
    forall (null : T) (os : list (sv_op T)),
    never_shrinks (fun _ => mk_dense null []) os ->
    exists e', sv_run eqb (fun _ => sv_new 0 null) os = Ok e' /\
      forall i,
        (forall k, sv_get (e' i) k = Ok (d_get (d_run (fun _ => mk_dense null []) os i) k)) /\
        sv_size (e' i) = length (d_elems (d_run (fun _ => mk_dense null []) os i)) /\
        StronglySorted lt (map fst (sv_data (e' i))) /\
        Forall (fun p => fst p < sv_size (e' i)) (sv_data (e' i)).
Proof. intros T eqb He null os Hs. exact (history_refines eqb He os null Hs). Qed.
Print Assumptions C01_sparse_reads_like_dense.

Example C01_case :
  let os := [ONew 0 2 0%Z; OPush 0 5%Z; OFill 0 [0; 7; 5]%Z; OFill 0 [1]%Z; OResize 0 5;
             OFromVect 1 [3; 0]%Z 0%Z; OSwap 0 1; OPush 0 9%Z; OAssign 2 1; OClearData 1; OClear 0] in
  never_shrinks (fun _ => mk_dense 0%Z []) os /\
  match sv_run Z.eqb (fun _ => sv_new 0 0%Z) os with
  | Ok e => map (sv_get (e 2)) [0;1;2;3;9] = [Ok 0; Ok 7; Ok 5; Ok 0; Ok 0]%Z /\ sv_size (e 1) = 5
  | _ => False
  end.
Proof. vm_compute. repeat (split; auto with arith). Qed.

(** C43. resize(n) keeps the elements below n, turns the others into null and
    keeps the vector well-formed -- but the size it leaves is max n size(), so
    it is n only when the vector does not shrink. *)
Theorem C43_resize_reads_partial :
  forall (T : Type) (v : sv T) (n : nat),
    sparse_ok v ->
    exists v', sv_resize v n = Ok v' /\
      (forall k, sv_get v' k = if k <? n then sv_get v k else Ok (sv_null v)) /\
      sv_size v' = Nat.max n (sv_size v) /\ sparse_ok v'.
Proof. intros T v n H. exact (resize_reads v n H). Qed.
Print Assumptions C43_resize_reads_partial.

(** The full statement "size() is n after resize(n)" is false ... *)
Theorem C43_resize_sets_size_refuted :
  exists (v v' : sv Z) n, sparse_ok v /\ sv_resize v n = Ok v' /\ sv_size v' <> n.
Proof.
  exists (mk_sv 3 0%Z [(1, 5%Z)]), (mk_sv 3 0%Z [(1, 5%Z)]), 2. vm_compute.
  repeat (try constructor; auto with arith). discriminate.
Qed.
Print Assumptions C43_resize_sets_size_refuted.

(** ... and a push_back after a shrinking resize lands at the old end. *)
Theorem C43_push_after_shrink_refuted :
  exists (os : list (sv_op Z)) e k,
    sv_run Z.eqb (fun _ => sv_new 0 0%Z) os = Ok e /\
    sv_get (e 0) k <> Ok (d_get (d_run (fun _ => mk_dense 0%Z []) os 0) k).
Proof.
  exists [OFromVect 0 [1; 2; 3]%Z 0%Z; OResize 0 1; OPush 0 9%Z].
  eexists; exists 1. split; [vm_compute; reflexivity|]. vm_compute. discriminate.
Qed.
Print Assumptions C43_push_after_shrink_refuted.

(** C02. Export and re-import. *)
Theorem C02_key_value_round_trip :
  forall (T : Type) (v w : sv T),
    sv_size w = sv_size v -> sv_null w = sv_null v ->
    fill_from_kv w (fst (fill_kv v)) (snd (fill_kv v)) = (v, false).
Proof. intros T v w H1 H2. exact (kv_roundtrip v w H1 H2). Qed.
Print Assumptions C02_key_value_round_trip.

Theorem C02_map_round_trip :
  forall (T : Type) (v w : sv T),
    sv_size w = sv_size v -> sv_null w = sv_null v ->
    fill_from_map w (fill_map v) = v.
Proof. intros T v w H1 H2. exact (map_roundtrip v w H1 H2). Qed.
Print Assumptions C02_map_round_trip.

(** Exporting to an empty std::vector of a type whose zero is the null value. *)
Theorem C02_dense_round_trip :
  forall (T : Type) (eqb : T -> T -> bool) (v w : sv T),
    (forall a b, eqb a b = true -> a = b) ->
    sparse_ok v -> sv_size w = sv_size v -> sv_null w = sv_null v ->
    exists d w', fill_vect (sv_null v) v [] = Ok d /\ fill_from_vect eqb w d = Ok w' /\
                 same_reads w' v.
Proof. intros T eqb v w He H1 H2 H3. exact (dense_roundtrip eqb v w He H1 H2 H3). Qed.
Print Assumptions C02_dense_round_trip.

Theorem C02_dense_export :
  forall (T : Type) (v : sv T), sparse_ok v ->
    exists d, fill_vect (sv_null v) v [] = Ok d /\ length d = sv_size v /\
              forall i dft, i < sv_size v -> sv_get v i = Ok (nth i d dft).
Proof. intros T v H. exact (dense_export v H). Qed.
Print Assumptions C02_dense_export.

Example C02_case :
  sparse_ok (mk_sv 4 0%Z [(0, 3%Z); (2, 8%Z)]) /\
  fill_vect 0%Z (mk_sv 4 0%Z [(0, 3%Z); (2, 8%Z)]) [] = Ok [3; 0; 8; 0]%Z /\
  fill_vect_range 0%Z (mk_sv 4 0%Z [(0, 3%Z); (2, 8%Z)]) [] 1 3 = Ok [0; 8]%Z /\
  fill_kv (mk_sv 4 0%Z [(0, 3%Z); (2, 8%Z)]) = ([0; 2], [3; 8]%Z).
Proof.
  split; [|split; [|split]]; try reflexivity.
  split; simpl; repeat (constructor; simpl; auto with arith).
Qed.

(** A destination that is not empty keeps its old content where the sparse
    vector is null. *)
Theorem C02_dense_export_nonempty_refuted :
  exists (v : sv Z) dst d k,
    sparse_ok v /\ fill_vect 0%Z v dst = Ok d /\ k < sv_size v /\ sv_get v k <> Ok (nth k d 0%Z).
Proof.
  exists (mk_sv 2 0%Z [(1, 5%Z)]), [7; 7]%Z, [7; 5]%Z, 0.
  split; [split; simpl; repeat (constructor; simpl; auto with arith)|].
  split; [reflexivity|]. split; [auto with arith|]. vm_compute. discriminate.
Qed.
Print Assumptions C02_dense_export_nonempty_refuted.

(** The ranged export is right exactly when nothing is stored at index [last] ... *)
Theorem C02_range_export_partial :
  forall (T : Type) (v : sv T) first last,
    sparse_ok v -> first <= last ->
    ~ In last (map fst (sv_data v)) ->
    exists d, fill_vect_range (sv_null v) v [] first last = Ok d /\ length d = last - first /\
              forall i dft, i < last - first -> sv_get v (first + i) = Ok (nth i d dft).
Proof. intros T v f l H1 H2 H3. exact (range_export v f l H1 H2 H3). Qed.
Print Assumptions C02_range_export_partial.

(** ... and otherwise always writes past the end of the destination. *)
Theorem C02_range_export_overruns_refuted :
  forall (T : Type) (zero : T) (v : sv T) dst first last,
    sparse_ok v -> first <= last -> In last (map fst (sv_data v)) ->
    fill_vect_range zero v dst first last = UB.
Proof. intros T zero v dst f l H1 H2 H3. exact (range_export_ub zero v dst f l H1 H2 H3). Qed.
Print Assumptions C02_range_export_overruns_refuted.

(** The ranged map export has exactly the stored entries of [first, last], with
    indices relative to [first].  ([last] is included here although the ranged
    vector export has [last - first] elements.) *)
Theorem C02_range_map_export :
  forall (T : Type) (v : sv T) first last, sparse_ok v -> first <= last ->
    exists m, fill_map_range v first last = Ok m /\
      forall k x, In (k, x) m <-> first + k <= last /\ In (first + k, x) (fill_map v).
Proof. intros T v f l H1 H2. exact (range_map v f l H1 H2). Qed.
Print Assumptions C02_range_map_export.

(** The ranged key/value export is out of bounds for every positive [first]
    with a stored entry in the range. *)
Theorem C02_range_key_value_refuted :
  forall (T : Type) (v : sv T) first last ks xs x,
    sparse_ok v -> 0 < first -> first <= last ->
    In x (sv_data v) -> first <= fst x <= last ->
    fill_kv_range v first last ks xs = UB.
Proof. intros T v f l ks xs x H1 H2 H3 H4 H5. exact (fill_kv_range_ub v f l ks xs x H1 H2 H3 H4 H5). Qed.
Print Assumptions C02_range_key_value_refuted.

Example C02_overrun_case :
  sparse_ok (mk_sv 3 0%Z [(2, 8%Z)]) /\ 1 <= 2 /\ In 2 (map fst (sv_data (mk_sv 3 0%Z [(2, 8%Z)]))) /\
  In (2, 8%Z) (sv_data (mk_sv 3 0%Z [(2, 8%Z)])).
Proof. split; [split; simpl; repeat (constructor; simpl; auto with arith)|]. simpl; auto. Qed.

(** C03. *)
Theorem C03_add_to_dense :
  forall (T : Type) (add : T -> T -> T) (v : sv T) (dst : list T),
    sparse_ok v -> sv_size v <= length dst -> (forall a, add a (sv_null v) = a) ->
    exists d', combine_into add v dst = Ok d' /\ length d' = length dst /\
      forall i dft, i < length dst ->
        exists x, sv_get v i = Ok x /\ nth i d' dft = add (nth i dst dft) x.
Proof. intros T add v dst H1 H2 H3. exact (add_reads add v dst H1 H2 H3). Qed.
Print Assumptions C03_add_to_dense.

Theorem C03_subtract_undoes_add :
  forall (T : Type) (add sub : T -> T -> T) (v : sv T) (dst : list T),
    sparse_ok v -> sv_size v <= length dst -> (forall a b, sub (add a b) b = a) ->
    obind (combine_into add v dst) (combine_into sub v) = Ok dst.
Proof. intros T add sub v dst H1 H2 H3. exact (add_sub_id add sub v dst H1 H2 H3). Qed.
Print Assumptions C03_subtract_undoes_add.

Example C03_case :
  sparse_ok (mk_sv 3 0%Z [(0, 3%Z); (2, 8%Z)]) /\
  combine_into Z.add (mk_sv 3 0%Z [(0, 3%Z); (2, 8%Z)]) [1; 1; 1]%Z = Ok [4; 1; 9]%Z.
Proof. split; [split; simpl; repeat (constructor; simpl; auto with arith)|reflexivity]. Qed.

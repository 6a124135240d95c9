(** Model of Likelihood/SparseVector.h. *)
From Verif Require Import Base.

Section Sparse.
Context {T : Type}.
(** [eqb a b]: the C++ [a == b] of the element type. *)
Variable eqb : T -> T -> bool.

(** SparseVector.h:211-215 (m_size, m_null, m_data). size_t is modelled by an
    unbounded natural. *)
Record sv := mk_sv { sv_size : nat; sv_null : T; sv_data : list (nat * T) }.

(** SparseVector.h:157, test_value: val != m_null. *)
Definition test_value (v : sv) (x : T) : bool := negb (eqb x (sv_null v)).

(** SparseVector.h:221-230, constructors (null) and (n, null). *)
Definition sv_new (n : nat) (null : T) : sv := mk_sv n null [].

(** Precondition of std::lower_bound(k, key_compare_lower): the keys are
    partitioned, all keys < k come first. *)
Fixpoint partitioned_lt (k : nat) (l : list (nat * T)) : bool :=
  match l with
  | [] => true
  | (j, _) :: l' => if j <? k then partitioned_lt k l'
                    else forallb (fun p => negb (fst p <? k)) l'
  end.

(** SparseVector.h:314-322: position of the first element with key >= k. A
    non-partitioned sequence violates the precondition of std::lower_bound.
    The binary search itself is the standard library's and is not modelled. *)
Fixpoint lb_pos (k : nat) (l : list (nat * T)) : nat :=
  match l with
  | [] => 0
  | (j, _) :: l' => if j <? k then S (lb_pos k l') else 0
  end.
Definition lower_bound (v : sv) (k : nat) : outcome nat :=
  if partitioned_lt k (sv_data v) then Ok (lb_pos k (sv_data v)) else UB.

(** SparseVector.h:324-332: first element with key > k, i.e. lower bound of k+1. *)
Definition upper_bound (v : sv) (k : nat) : outcome nat := lower_bound v (S k).

(** SparseVector.h:298-312, find: position or end(). *)
Definition sv_find (v : sv) (k : nat) : outcome (option nat) :=
  obind (lower_bound v k) (fun p =>
    match nth_error (sv_data v) p with
    | None => Ok None
    | Some (j, _) => if j =? k then Ok (Some p) else Ok None
    end).

(** SparseVector.h:256-260, operator[]. *)
Definition sv_get (v : sv) (k : nat) : outcome T :=
  obind (sv_find v k) (fun r =>
    match r with
    | None => Ok (sv_null v)
    | Some p => match nth_error (sv_data v) p with
                | Some (_, x) => Ok x
                | None => UB
                end
    end).

(** SparseVector.h:262-266, nth_element. *)
Definition nth_element (v : sv) (n : nat) : T :=
  match nth_error (sv_data v) n with Some (_, x) => x | None => sv_null v end.

(** SparseVector.h:142-145, nth_index (an int, -1 if absent). *)
Definition nth_index (v : sv) (n : nat) : Z :=
  match nth_error (sv_data v) n with Some (k, _) => Z.of_nat k | None => (-1)%Z end.

(** SparseVector.h:268-274, push_back. *)
Definition push_back (v : sv) (x : T) : sv :=
  mk_sv (S (sv_size v)) (sv_null v)
        (if test_value v x then sv_data v ++ [(sv_size v, x)] else sv_data v).

(** SparseVector.h:115, clear. *)
Definition sv_clear (v : sv) : sv := mk_sv 0 (sv_null v) [].
(** SparseVector.h:118 clear_data and 160 set_to_null. *)
Definition sv_clear_data (v : sv) : sv := mk_sv (sv_size v) (sv_null v) [].

(** SparseVector.h:288-296, resize.  Note that the shrinking branch erases
    entries but does not assign m_size. *)
Definition sv_resize (v : sv) (n : nat) : outcome sv :=
  if sv_size v <=? n then Ok (mk_sv n (sv_null v) (sv_data v))
  else obind (lower_bound v n) (fun p =>
         Ok (mk_sv (sv_size v) (sv_null v) (firstn p (sv_data v)))).

(** The loop of fill_from_vect, SparseVector.h:340-345: pairs (idx, value) of
    the non-null elements. *)
Fixpoint nonnull_from (v : sv) (i : nat) (l : list T) : list (nat * T) :=
  match l with
  | [] => []
  | x :: l' => if test_value v x then (i, x) :: nonnull_from v (S i) l'
               else nonnull_from v (S i) l'
  end.

(** SparseVector.h:334-346, fill_from_vect: throws on size mismatch before
    changing anything. *)
Definition fill_from_vect (v : sv) (l : list T) : outcome sv :=
  if sv_size v =? length l
  then Ok (mk_sv (sv_size v) (sv_null v) (nonnull_from v 0 l)) else Throw.

(** SparseVector.h:232-237, constructor from a vector. *)
Definition sv_of_vect (l : list T) (null : T) : outcome sv :=
  fill_from_vect (sv_new (length l) null) l.

(** SparseVector.h:348-354, fill_from_map. The map is its in-order list of
    pairs (keys strictly increasing, a std::map invariant). *)
Definition fill_from_map (v : sv) (m : list (nat * T)) : sv :=
  mk_sv (sv_size v) (sv_null v) m.

(** SparseVector.h:356-369, fill_from_key_and_value: result state and whether
    it threw; the data are cleared before the check. *)
Definition fill_from_kv (v : sv) (ks : list nat) (xs : list T) : sv * bool :=
  if length ks =? length xs
  then (mk_sv (sv_size v) (sv_null v) (combine ks xs), false)
  else (mk_sv (sv_size v) (sv_null v) [], true).

(** SparseVector.h:371-377, fill_vect(vect): resize (new slots value-initialised
    to [zero]) and overwrite the stored positions. *)
Definition fill_vect (zero : T) (v : sv) (dst : list T) : outcome (list T) :=
  mfold (fun d (p : nat * T) => vec_set d (fst p) (snd p))
        (sv_data v) (vec_resize dst (sv_size v) zero).

(** Sub-sequence [lower_bound(first), upper_bound(last)) used by the ranged
    exports (SparseVector.h:382, 399, 420-421). *)
Definition range_data (v : sv) (first last : nat) : outcome (list (nat * T)) :=
  obind (lower_bound v first) (fun p =>
  obind (upper_bound v last) (fun q =>
    Ok (firstn (q - p) (skipn p (sv_data v))))).

(** SparseVector.h:379-385, fill_vect(vect, first, last). [last - first] is
    size_t arithmetic; callers pass first <= last. *)
Definition fill_vect_range (zero : T) (v : sv) (dst : list T) (first last : nat)
  : outcome (list T) :=
  obind (range_data v first last) (fun r =>
    mfold (fun d (p : nat * T) => vec_set d (fst p - first) (snd p)) r
          (vec_resize dst (last - first) zero)).

(** SparseVector.h:387-394, fill_map: the exported map as in-order pairs. For strictly
    increasing keys the insertion order is the map order. *)
Definition fill_map (v : sv) : list (nat * T) := sv_data v.
(** SparseVector.h:396-402, ranged fill_map (keys relative to [first]). *)
Definition fill_map_range (v : sv) (first last : nat) : outcome (list (nat * T)) :=
  obind (range_data v first last) (fun r =>
    Ok (map (fun p => (fst p - first, snd p)) r)).

(** SparseVector.h:404-415, fill_key_and_value: the destinations are resized
    to the number of entries and every slot is overwritten. *)
Definition fill_kv (v : sv) : list nat * list T :=
  (map fst (sv_data v), map snd (sv_data v)).

(** SparseVector.h:417-430, ranged fill_key_and_value: writes slot
    [idx - first] (size_t; wraps when idx < first, an out-of-bounds write). *)
Fixpoint write_kv (first idx : nat) (r : list (nat * T)) (ks : list nat) (xs : list T)
  : outcome (list nat * list T) :=
  match r with
  | [] => Ok (ks, xs)
  | (k, x) :: r' =>
      if idx <? first then UB
      else obind (vec_set ks (idx - first) k) (fun ks' =>
           obind (vec_set xs (idx - first) x) (fun xs' =>
             write_kv first (S idx) r' ks' xs'))
  end.
Definition fill_kv_range (v : sv) (first last : nat) (ks : list nat) (xs : list T)
  : outcome (list nat * list T) :=
  obind (range_data v first last) (fun r =>
    write_kv first 0 r (vec_resize ks (length r) 0)
             (vec_resize xs (length r) (sv_null v))).

(** SparseVector.h:432-444, add_to_vect / subtract_from_vect, with the
    element operation as parameter. *)
Definition combine_into (op : T -> T -> T) (v : sv) (dst : list T) : outcome (list T) :=
  mfold (fun d (p : nat * T) =>
           obind (vec_get d (fst p)) (fun y => vec_set d (fst p) (op y (snd p))))
        (sv_data v) dst.

End Sparse.
Arguments sv T : clear implicits.
Arguments mk_sv {T}.

(** ** Histories over any number of SparseVector objects (numbered). *)
Inductive sv_op (T : Type) : Type :=
| ONew (i n : nat) (null : T)                 (* SparseVector(n, null) *)
| OFromVect (i : nat) (l : list T) (null : T) (* SparseVector(vect, null) *)
| OAssign (i j : nat)                         (* obj i = obj j *)
| OPush (i : nat) (x : T)
| OResize (i n : nat)
| OClear (i : nat)
| OClearData (i : nat)
| OFill (i : nat) (l : list T)                (* fill_from_vect *)
| OSwap (i j : nat).
Arguments ONew {T}. Arguments OFromVect {T}. Arguments OAssign {T}. Arguments OPush {T}.
Arguments OResize {T}. Arguments OClear {T}. Arguments OClearData {T}. Arguments OFill {T}.
Arguments OSwap {T}.

Definition env_set {A} (e : nat -> A) (i : nat) (a : A) : nat -> A :=
  fun j => if j =? i then a else e j.

(** One call; [Throw] leaves the objects as they were (every throwing member
    used here checks before it writes). *)
Definition sv_step {T} (eqb : T -> T -> bool) (e : nat -> sv T) (o : sv_op T)
  : outcome (nat -> sv T) :=
  match o with
  | ONew i n null => Ok (env_set e i (sv_new n null))
  | OFromVect i l null => obind (sv_of_vect eqb l null) (fun v => Ok (env_set e i v))
  | OAssign i j => Ok (env_set e i (e j))                (* SparseVector.h:239-254 *)
  | OPush i x => Ok (env_set e i (push_back eqb (e i) x))
  | OResize i n => obind (sv_resize (e i) n) (fun v => Ok (env_set e i v))
  | OClear i => Ok (env_set e i (sv_clear (e i)))
  | OClearData i => Ok (env_set e i (sv_clear_data (e i)))
  | OFill i l => obind (fill_from_vect eqb (e i) l) (fun v => Ok (env_set e i v))
  | OSwap i j => Ok (env_set (env_set e i (e j)) j (e i)) (* SparseVector.h:276-286 *)
  end.

(** A history: a throwing call is caught by the caller and the history goes on. *)
Fixpoint sv_run {T} (eqb : T -> T -> bool) (e : nat -> sv T) (os : list (sv_op T))
  : outcome (nat -> sv T) :=
  match os with
  | [] => Ok e
  | o :: os' => match sv_step eqb e o with
                | Ok e' => sv_run eqb e' os'
                | Throw => sv_run eqb e os'
                | UB => UB
                end
  end.

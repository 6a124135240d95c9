(** Model of Likelihood/HistND.h and src/HistND.cxx.

    [X] is the type of coordinates, [T] the type of bin contents, [W] the type
    of weights and [acc] the in-place addition [m_data[i] += weight] (float
    content, double weight): all arbitrary.  The external evtbin::Binner is a
    number of bins and an arbitrary index function.  Fixed-width integer
    overflow of the strides is not modelled. *)
From Verif Require Import Base.

Section Hist.
Context {X T W : Type} (zero : T) (acc : T -> W -> T).

(** evtbin::Binner: getNumBins() and computeIndex(). *)
Record binner := mk_binner { nbins : nat; cindex : X -> Z }.

(** HistND.h:88-95. *)
Record hist := mk_hist { h_binners : list binner; h_data : list T; h_strides : list nat }.

Definition ndims (h : hist) : nat := length (h_binners h).

(** HistND.cxx:24-29. *)
Fixpoint strides_from (s : nat) (bs : list binner) : list nat :=
  match bs with
  | [] => []
  | b :: bs' => s :: strides_from (s * nbins b) bs'
  end.

(** HistND.cxx:13-30; with no axis [m_strides[0] = 1] writes out of bounds. *)
Definition hist_new (bs : list binner) : outcome hist :=
  match bs with
  | [] => UB
  | _ => Ok (mk_hist bs (repeat zero (fold_left (fun n b => n * nbins b) bs 1)) (strides_from 1 bs))
  end.

(** HistND.cxx:73-84. *)
Definition binIndexL (h : hist) (ivalues : list Z) : outcome Z :=
  if negb (length ivalues =? ndims h) then Throw
  else Ok (fold_left (fun s p => s + Z.of_nat (fst p) * snd p)%Z (combine (h_strides h) ivalues) 0%Z).

(** Loop of HistND.cxx:61-69; [None] is the early [return -1]. *)
Fixpoint collect (border : Z) (bs : list binner) (vs : list X) : option (list Z) :=
  match bs, vs with
  | b :: bs', v :: vs' =>
      let i := cindex b v in
      if (i <? border)%Z || (Z.of_nat (nbins b) - border <=? i)%Z then None
      else option_map (cons i) (collect border bs' vs')
  | _, _ => Some []
  end.

(** HistND.cxx:53-71. *)
Definition binIndexD (h : hist) (values : list X) (border : Z) : outcome Z :=
  if negb (length values =? ndims h) then Throw
  else match collect border (h_binners h) values with
       | None => Ok (-1)%Z
       | Some iv => binIndexL h iv
       end.

(** HistND.cxx:46-51. *)
Definition fillBin (h : hist) (values : list X) (w : W) : outcome hist :=
  obind (binIndexD h values 0) (fun i =>
    if (0 <=? i)%Z then
      obind (vec_get (h_data h) (Z.to_nat i)) (fun x =>
      obind (vec_set (h_data h) (Z.to_nat i) (acc x w)) (fun d =>
      Ok (mk_hist (h_binners h) d (h_strides h))))
    else Ok h).

(** HistND.cxx:86-88: unchecked read. *)
Definition hist_read (h : hist) (i : Z) : outcome T :=
  if (i <? 0)%Z then UB else vec_get (h_data h) (Z.to_nat i).

(** HistND.cxx:102-107, 138-143, 174-179: size of an axis from the strides;
    integer division by zero is undefined. *)
Definition dimSize (h : hist) (idim : nat) : outcome nat :=
  obind (vec_get (h_strides h) idim) (fun s =>
  if s =? 0 then UB
  else if idim =? ndims h - 1 then Ok (length (h_data h) / s)
  else obind (vec_get (h_strides h) (S idim)) (fun s' => Ok (s' / s))).

(** Writes of HistND.cxx:121-123. *)
Fixpoint write_stride (d : list T) (idx stride : nat) (vals : list T) : outcome (list T) :=
  match vals with
  | [] => Ok d
  | v :: vals' => obind (vec_set d idx v) (fun d' => write_stride d' (idx + stride) stride vals')
  end.
(** Reads of HistND.cxx:155-157. *)
Fixpoint read_stride (d : list T) (idx stride n : nat) : outcome (list T) :=
  match n with
  | 0 => Ok []
  | S n' => obind (vec_get d idx) (fun v =>
            obind (read_stride d (idx + stride) stride n') (fun vs => Ok (v :: vs)))
  end.

(** First cell of a slice, HistND.cxx:112-119. *)
Definition slice_start (h : hist) (idim : nat) (ivalues : list nat) : outcome Z :=
  binIndexL h (map Z.of_nat (upd ivalues idim 0)).

(** HistND.cxx:91-125. *)
Definition setSlice (h : hist) (idim : nat) (ivalues : list nat) (data : list T) : outcome hist :=
  if ndims h <=? idim then Throw
  else if negb (length ivalues =? ndims h) then Throw
  else obind (dimSize h idim) (fun n =>
    if negb (length data =? n) then Throw
    else obind (slice_start h idim ivalues) (fun idx =>
         obind (vec_get (h_strides h) idim) (fun stride =>
         obind (write_stride (h_data h) (Z.to_nat idx) stride data) (fun d =>
         Ok (mk_hist (h_binners h) d (h_strides h)))))).

(** HistND.cxx:128-159. *)
Definition getSlice (h : hist) (idim : nat) (ivalues : list nat) : outcome (list T) :=
  if ndims h <=? idim then Throw
  else if negb (length ivalues =? ndims h) then Throw
  else obind (dimSize h idim) (fun n =>
       obind (slice_start h idim ivalues) (fun idx =>
       obind (vec_get (h_strides h) idim) (fun stride =>
       read_stride (h_data h) (Z.to_nat idx) stride n))).

End Hist.
Arguments binner X : clear implicits.
Arguments hist X T : clear implicits.

Section Sum.
Context {X T : Type} (zero : T) (add : T -> T -> T).

(** Inner loop of HistND.cxx:203-205: the running index starts at [iout]
    whatever [firstBin] is. *)
Definition sum_out (d : list T) (iout stride n : nat) : outcome T :=
  obind (read_stride d iout stride n) (fun vs => Ok (fold_left add vs zero)).

Fixpoint omap {A B} (f : A -> outcome B) (l : list A) : outcome (list B) :=
  match l with
  | [] => Ok []
  | a :: l' => obind (f a) (fun b => obind (omap f l') (fun bs => Ok (b :: bs)))
  end.

(** HistND.cxx:162-210. *)
Definition sumRange (h : hist X T) (idim firstBin lastBin : nat) : outcome (hist X T) :=
  if ndims h <=? idim then Throw
  else if lastBin <=? firstBin then Throw
  else obind (dimSize h idim) (fun n =>
    if n <=? firstBin then Throw
    else if n <? lastBin then Throw
    else
      let bs := firstn idim (h_binners h) ++ skipn (S idim) (h_binners h) in
      obind (hist_new zero bs) (fun ret =>
      obind (vec_get (h_strides h) idim) (fun stride =>
      obind (omap (fun iout => sum_out (h_data h) iout stride (lastBin - firstBin))
                  (seq 0 (length (h_data ret)))) (fun out =>
      Ok (mk_hist (h_binners ret) out (h_strides ret)))))).
End Sum.

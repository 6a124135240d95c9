(** Properties C05 and C06: N-dimensional histograms. *)
From Verif Require Import Base HistModel HistSpec HistProofs.

(** ** C05 *)

(** Tuples of in-range bin numbers and cells of the data array correspond one
    to one. *)
Theorem C05_index_bijection :
  forall (X T : Type) (zero : T) (bs : list (binner X)) (h : hist X T),
    hist_new zero bs = Ok h ->
    (forall iv, in_range bs iv ->
       exists z, binIndexL h (map Z.of_nat iv) = Ok z /\ (0 <= z < Z.of_nat (length (h_data h)))%Z) /\
    (forall iv iv', in_range bs iv -> in_range bs iv' ->
       binIndexL h (map Z.of_nat iv) = binIndexL h (map Z.of_nat iv') -> iv = iv') /\
    (forall k, k < length (h_data h) ->
       exists iv, in_range bs iv /\ binIndexL h (map Z.of_nat iv) = Ok (Z.of_nat k)).
Proof.
  intros X T zero bs h H. split; [|split].
  - intros iv. exact (index_range zero bs h iv H).
  - intros iv iv'. exact (index_inj zero bs h iv iv' H).
  - intros k. exact (index_surj zero bs h k H).
Qed.
Print Assumptions C05_index_bijection.

(** A coordinate tuple gets the cell of the bins it falls in when every bin is
    at least [border] bins from both ends of its axis, and -1 otherwise. *)
Theorem C05_coordinate_index :
  forall (X T : Type) (zero : T) (bs : list (binner X)) (h : hist X T) vs border,
    hist_new zero bs = Ok h -> (0 <= border)%Z -> length vs = length bs ->
    let inner iv := Forall2 (fun b i => (border <= Z.of_nat i < Z.of_nat (nbins b) - border)%Z) bs iv in
    (forall iv, falls_in bs vs iv -> inner iv ->
       binIndexD h vs border = binIndexL h (map Z.of_nat iv)) /\
    ((forall iv, falls_in bs vs iv -> ~ inner iv) -> binIndexD h vs border = Ok (-1)%Z).
Proof.
  intros X T zero bs h vs border H Hb Hl inner. split.
  - intros iv. exact (coord_index zero bs h vs iv border H Hb).
  - exact (coord_index_out zero bs h vs border H Hb Hl).
Qed.
Print Assumptions C05_coordinate_index.

(** After any sequence of fills every cell holds the in-order accumulation of
    the weights of the events that fell in it; no fill is undefined.
    [acc] is arbitrary, so this holds for rounded addition. *)
Theorem C05_fills_accumulate :
  forall (X T W : Type) (zero : T) (acc : T -> W -> T) (bs : list (binner X)) (h : hist X T) evs,
    hist_new zero bs = Ok h ->
    Forall (fun e => length (fst e) = length bs) evs ->
    exists h', fills acc h evs = Ok h' /\
      forall iv, in_range bs iv -> cell h' iv = Ok (fold_left acc (weights_in bs evs iv) zero).
Proof. intros X T W zero acc bs h evs. exact (fills_cells zero acc bs h evs). Qed.
Print Assumptions C05_fills_accumulate.

(** The boolean used to select events is membership of the cell. *)
Theorem C05_weights_in_selects :
  forall (X : Type) (bs : list (binner X)) vs iv, falls_inb bs vs iv = true <-> falls_in bs vs iv.
Proof. intros X bs vs iv. exact (falls_inb_spec bs vs iv). Qed.
Print Assumptions C05_weights_in_selects.

(** With exact addition the total content is the total weight of the events
    inside the histogram. *)
Theorem C05_total_conserved :
  forall (X T : Type) (zero : T) (add : T -> T -> T),
    (forall a, add a zero = a) -> (forall a b, add a b = add b a) ->
    (forall a b c, add a (add b c) = add (add a b) c) ->
    forall (bs : list (binner X)) (h : hist X T) evs,
    hist_new zero bs = Ok h ->
    Forall (fun e => length (fst e) = length bs) evs ->
    exists h', fills add h evs = Ok h' /\
      fold_right add zero (h_data h') =
      fold_left add (map snd (filter (fun e => inside bs (fst e)) evs)) zero.
Proof.
  intros X T zero add H0 Hc Ha bs h evs. exact (fills_total_new zero add H0 Hc Ha bs h evs).
Qed.
Print Assumptions C05_total_conserved.

(** A fill with the wrong number of coordinates throws. *)
Theorem C05_wrong_arity_throws :
  forall (X T W : Type) (acc : T -> W -> T) (h : hist X T) vs w,
    length vs <> ndims h -> fillBin acc h vs w = Throw.
Proof.
  intros X T W acc h vs w H. unfold fillBin, binIndexD.
  now rewrite (proj2 (Nat.eqb_neq _ _) H).
Qed.
Print Assumptions C05_wrong_arity_throws.

(** A 2 x 3 histogram over the integers: bins [0,10) [10,20) and [0,1) [1,2) [2,3). *)
Definition ax1 : binner Z := mk_binner 2 (fun x => (if (x <? 0) || (20 <=? x) then -1 else x / 10)%Z).
Definition ax2 : binner Z := mk_binner 3 (fun x => (if (x <? 0) || (3 <=? x) then -1 else x)%Z).
Example C05_case :
  obind (hist_new 0%Z [ax1; ax2]) (fun h =>
  obind (fills Z.add h [([3; 2], 5); ([12; 0], 7); ([19; 0], 1); ([25; 1], 100)]%Z) (fun h =>
  Ok (h_data h))) = Ok [0; 8; 0; 0; 5; 0]%Z
  /\ falls_in [ax1; ax2] [12; 0]%Z [1; 0].
Proof.
  split; [reflexivity|]. apply C05_weights_in_selects. reflexivity.
Qed.

(** ** C06 *)

(** In every histogram a program can hold, setting a slice succeeds, reading it
    back returns what was set, the cells of the slice hold it, and no other cell
    changes. *)
Theorem C06_set_get_slice :
  forall (X T W : Type) (zero : T) (acc : T -> W -> T) (bs : list (binner X)) (h : hist X T) idim iv b data,
    reach zero acc bs h -> in_range bs iv ->
    nth_error bs idim = Some b -> length data = nbins b ->
    exists h', setSlice h idim iv data = Ok h' /\
      getSlice h' idim iv = Ok data /\
      (forall j, j < nbins b -> cell h' (upd iv idim j) = Ok (nth j data zero)) /\
      (forall iv', in_range bs iv' -> (forall j, iv' <> upd iv idim j) -> cell h' iv' = cell h iv').
Proof. intros X T W zero acc bs h idim iv b data. exact (slice_round_trip zero acc bs h idim iv b data). Qed.
Print Assumptions C06_set_get_slice.

(** A slice is the list of its cells, in the order of the axis. *)
Theorem C06_get_slice_is_cells :
  forall (X T W : Type) (zero : T) (acc : T -> W -> T) (bs : list (binner X)) (h : hist X T) idim iv b,
    reach zero acc bs h -> in_range bs iv -> nth_error bs idim = Some b ->
    getSlice h idim iv = oseq (map (fun j => cell h (upd iv idim j)) (seq 0 (nbins b))).
Proof. intros X T W zero acc bs h idim iv b. exact (getSlice_is_cells zero acc bs h idim iv b). Qed.
Print Assumptions C06_get_slice_is_cells.

Example C06_case :
  obind (hist_new 0%Z [ax1; ax2]) (fun h =>
  obind (fillBin Z.add h [3; 2]%Z 5%Z) (fun h =>
  obind (setSlice h 1 [1; 0] [7; 8; 9]%Z) (fun h =>
  obind (getSlice h 1 [1; 2]) (fun s1 => obind (getSlice h 0 [0; 2]) (fun s2 => Ok (s1, s2))))))
  = Ok ([7; 8; 9], [5; 9])%Z /\ in_range [ax1; ax2] [1; 2].
Proof. split; [reflexivity|]. repeat constructor. Qed.

(** sumRange over the last axis, starting at its first bin, is the sum of the
    cells in the range. Missing: any other axis, any other first bin. *)
Theorem C06_sum_range_partial :
  forall (X T W : Type) (zero : T) (acc : T -> W -> T) (add : T -> T -> T) (bs : list (binner X)) b (h : hist X T) last iv0,
    reach zero acc (bs ++ [b]) h -> bs <> [] -> in_range (bs ++ [b]) iv0 -> 0 < last <= nbins b ->
    exists h', sumRange zero add h (length bs) 0 last = Ok h' /\ h_binners h' = bs /\
      forall iv, in_range bs iv ->
        cell h' iv = obind (oseq (map (fun j => cell h (iv ++ [j])) (seq 0 last)))
                           (fun xs => Ok (fold_left add xs zero)).
Proof.
  intros X T W zero acc add bs b h last iv0 Hre Hne Hr Hl.
  exact (sumRange_last zero add h bs b last iv0 (proj1 (reach_wf zero acc _ _ Hre)) (proj2 (reach_wf zero acc _ _ Hre)) Hne Hr Hl).
Qed.
Print Assumptions C06_sum_range_partial.

Definition h23 : outcome (hist Z Z) :=
  obind (hist_new 0%Z [ax1; ax2]) (fun h =>
  obind (setSlice h 0 [0; 0] [1; 2]%Z) (fun h =>
  obind (setSlice h 0 [0; 1] [30; 40]%Z) (fun h =>
  setSlice h 0 [0; 2] [500; 600]%Z))).

Example C06_sum_case :
  obind h23 (fun h => obind (sumRange 0%Z Z.add h 1 0 2) (fun h' => Ok (h_data h'))) = Ok [31; 42]%Z.
Proof. reflexivity. Qed.

(** With a first bin other than 0 the range [0, last - first) is summed
    instead: the sum over bins 1 and 2 of the second axis is (530, 640). *)
Theorem C06_sum_range_first_bin_refuted :
  exists (h : hist Z Z), h23 = Ok h /\ cell h [0; 1] = Ok 30%Z /\ cell h [0; 2] = Ok 500%Z /\
    exists h', sumRange 0%Z Z.add h 1 1 3 = Ok h' /\ cell h' [0] = Ok 31%Z.
Proof. eexists. split; [reflexivity|]. repeat (split; [reflexivity|]). eexists. split; reflexivity. Qed.
Print Assumptions C06_sum_range_first_bin_refuted.

(** Over an axis that is not the last the wrong cells are added: the sum over
    the whole first axis at position 1 of the second is 30 + 40. *)
Theorem C06_sum_range_axis_refuted :
  exists (h : hist Z Z), h23 = Ok h /\ cell h [0; 1] = Ok 30%Z /\ cell h [1; 1] = Ok 40%Z /\
    exists h', sumRange 0%Z Z.add h 0 0 2 = Ok h' /\ cell h' [1] = Ok 32%Z.
Proof. eexists. split; [reflexivity|]. repeat (split; [reflexivity|]). eexists. split; reflexivity. Qed.
Print Assumptions C06_sum_range_axis_refuted.

(** On a one-dimensional histogram sumRange builds a histogram with no axis,
    which writes out of bounds. *)
Theorem C06_sum_range_1d_refuted :
  obind (hist_new 0%Z [ax2]) (fun h => sumRange 0%Z Z.add h 0 0 3) = UB.
Proof. reflexivity. Qed.
Print Assumptions C06_sum_range_1d_refuted.

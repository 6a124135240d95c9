(** What an N-dimensional histogram is, independently of how cells are laid
    out: a map from tuples of bin numbers to contents. *)
From Verif Require Import Base HistModel. (* HistModel only for the API types *)

Section Spec.
Context {X T W : Type}.

(** [iv] is a tuple of bin numbers, one per axis, each within its axis. *)
Definition in_range (bs : list (binner X)) (iv : list nat) : Prop :=
  Forall2 (fun b i => i < nbins b) bs iv.

(** [vs] falls in the cell [iv]: on each axis the binner puts the coordinate in
    the corresponding bin. *)
Definition falls_in (bs : list (binner X)) (vs : list X) (iv : list nat) : Prop :=
  in_range bs iv /\ length vs = length bs /\
  forall k b v, nth_error bs k = Some b -> nth_error vs k = Some v ->
    exists i, nth_error iv k = Some i /\ cindex b v = Z.of_nat i.

Definition falls_inb (bs : list (binner X)) (vs : list X) (iv : list nat) : bool :=
  (length vs =? length bs) && (length iv =? length bs) &&
  forallb (fun p => Z.eqb (cindex (fst (fst p)) (snd (fst p))) (Z.of_nat (snd p))
                    && (snd p <? nbins (fst (fst p))))
          (combine (combine bs vs) iv).

(** The content of the cell [iv], read through the public interface. *)
Definition cell (h : hist X T) (iv : list nat) : outcome T :=
  obind (binIndexL h (map Z.of_nat iv)) (hist_read h).

(** A sequence of fills. *)
Definition fills (acc : T -> W -> T) (h : hist X T) (evs : list (list X * W)) : outcome (hist X T) :=
  mfold (fun h e => fillBin acc h (fst e) (snd e)) evs h.

(** The weights of the events of [evs] that fall in cell [iv], in order. *)
Definition weights_in (bs : list (binner X)) (evs : list (list X * W)) (iv : list nat) : list W :=
  map snd (filter (fun e => falls_inb bs (fst e) iv) evs).

(** Histograms a program can hold: built, filled, and slices set. *)
Inductive reach (zero : T) (acc : T -> W -> T) (bs : list (binner X)) : hist X T -> Prop :=
| reach_new h : hist_new zero bs = Ok h -> reach zero acc bs h
| reach_fill h vs w h' : reach zero acc bs h -> fillBin acc h vs w = Ok h' -> reach zero acc bs h'
| reach_slice h idim iv d h' : reach zero acc bs h -> in_range bs iv -> setSlice h idim iv d = Ok h' -> reach zero acc bs h'.

(** Every coordinate is in some bin of its axis. *)
Definition inside (bs : list (binner X)) (vs : list X) : bool :=
  forallb (fun p => (0 <=? cindex (fst p) (snd p))%Z && (cindex (fst p) (snd p) <? Z.of_nat (nbins (fst p)))%Z)
          (combine bs vs).


End Spec.

(** All results of a list of calls. *)
Fixpoint oseq {A} (l : list (outcome A)) : outcome (list A) :=
  match l with
  | [] => Ok []
  | x :: l' => obind x (fun a => obind (oseq l') (fun r => Ok (a :: r)))
  end.



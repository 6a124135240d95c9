(** What an accumulator should return: the sum of what was added since the
    previous total(). *)
From Coq Require Import Reals.
From Verif Require Import Base AccumModel. (* AccumModel only for [acc_op] *)

Fixpoint totals_spec {T} (zero : T) (add : T -> T -> T) (acc : T) (os : list (acc_op T)) : list T :=
  match os with
  | [] => []
  | AAdd v :: os' => totals_spec zero add (add acc v) os'
  | ATotal :: os' => acc :: totals_spec zero add zero os'
  end.

(** No zero is added before the first non-zero value. *)
Fixpoint first_add_nonzero (os : list (acc_op R)) : Prop :=
  match os with
  | [] => True
  | AAdd v :: _ => v <> 0%R
  | ATotal :: os' => first_add_nonzero os'
  end.

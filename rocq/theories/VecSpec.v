(** Element-wise operations on lists. *)
From Verif Require Import Base.

Fixpoint map2 {A B C} (f : A -> B -> C) (l1 : list A) (l2 : list B) : list C :=
  match l1, l2 with
  | x :: l1', y :: l2' => f x y :: map2 f l1' l2'
  | _, _ => []
  end.
Definition map3 {A} (f : A -> A -> A -> A) (l1 l2 l3 : list A) : list A :=
  map2 (fun g z => g z) (map2 f l1 l2) l3.

(** What the files written by the tools hold. *)
From Coq Require Import Reals List Arith String.
From Verif Require Import Base FioModel.
Import ListNotations.

(** A string that fits in a column of 32 characters. *)
Definition fits (s : string) : Prop := String.length s <= 32.
(** Every name of a model fits. *)
Definition names_fit (m : model) : Prop :=
  forall s f ps, In (s, (f, ps)) m -> fits s /\ fits f /\ forall n p, In (n, p) ps -> fits n.
(** The row of a parameter [n] of the function [f] of the source [s]. *)
Definition row_of (s f n : string) (p : par) : prow := mk_prow s f n (pa_value p) (pa_scale p) (pa_error p) (pa_free p).
(** The bins between edges. *)
Definition bins_of {A} (es : list A) : list (A * A) := combine es (tl es).
(** The planes [k] to [k + n - 1] of a map of [npix] pixels. *)
Definition planes {T} (npix : nat) (data : list T) (k n : nat) : list T := firstn (n * npix) (skipn (k * npix) data).

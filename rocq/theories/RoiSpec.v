(** What the selections of an event file mean, said without reference to the code. *)
From Coq Require Import Reals List.
From Verif Require Import RoiModel.
Import ListNotations.
Local Open Scope R_scope.

Definition between (t : R) (c : R * R) : Prop := fst c <= t <= snd c.
(** An event is in the data if it is in some good time interval (when there are any), in every time range, in the energy
    range, in the region and not too near to the horizon. *)
Definition selected (gtis tcuts : list (R * R)) (have_gtis : bool) (emin emax : R) (cone : R * R * R) (muzen : R) (e : revent) : Prop :=
  (have_gtis = true -> exists g, In g gtis /\ between (re_time e) g) /\
  (forall c, In c tcuts -> between (re_time e) c) /\
  emin <= re_energy e <= emax /\
  re_sep e (fst cone) <= snd cone /\
  muzen <= re_muzen e.
(** The energies of a grid with equal ratios between two energies. *)
Definition log_grid (emin emax : R) (es : list R) : Prop :=
  nth 0 es 0 = emin /\ nth (length es - 1) es 0 = emax /\
  (forall i j, (i < j < length es)%nat -> nth i es 0 < nth j es 0) /\
  forall i, (S i < length es)%nat -> nth (S i) es 0 / nth i es 0 = Rpower (emax / emin) (1 / INR (length es - 1)).

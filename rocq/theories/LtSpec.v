(** What good time is, said without reference to the code. *)
From Coq Require Import Reals List Bool.
From Coquelicot Require Import Coquelicot.
From Verif Require Import AccumModel AccumProofs LtModel.
Local Open Scope R_scope.
Import ListNotations.


(** A time lies in an interval; the end does not belong to it, which matters to no duration. *)
Definition inside (t : R) (i : R * R) : bool := Rleb (fst i) t && Rltb t (snd i).
(** A time is good if it is in every time cut and in some good time interval. *)
Definition good (cuts gtis : list (R * R)) (t : R) : bool := forallb (inside t) cuts && existsb (inside t) gtis.
Definition indicator (p : R -> bool) (t : R) : R := if p t then 1 else 0.
(** The duration of the set of times [p] between two times. *)
Definition duration (p : R -> bool) (a b d : R) : Prop := is_RInt (indicator p) a b d.
(** Intervals one after the other. *)
Fixpoint in_order (l : list (R * R)) : Prop :=
  match l with
  | [] => True
  | i :: rest => fst i <= snd i /\ (match rest with [] => True | j :: _ => snd i <= fst j end) /\ in_order rest
  end.
(** The same for the rows of a spacecraft table, which take time. *)
Definition rows_in_order {D : Type} (rows : list (ft2 D)) : Prop :=
  in_order (map (fun r => (row_start r, row_stop r)) rows) /\ List.Forall (fun r => Rlt (row_start r) (row_stop r)) rows.
(** The share of an interval that is good. *)
Definition good_share (cuts gtis : list (R * R)) (start stop : R) : R :=
  RInt (indicator (good cuts gtis)) start stop / (stop - start).

(** The livetime of a row that falls into good time: into the cube, and into the cube weighted with
    the livetime fraction of the row. *)
Definition expected_fill {D : Type} (cuts gtis : list (R * R)) (r : ft2 D) : D * R * R :=
  let lt := row_live r * good_share cuts gtis (row_start r) (row_stop r) in
  (row_dir r, lt, lt * (row_live r / (row_stop r - row_start r))).
(** Fills of nothing are of no account. *)
Definition some_livetime {D : Type} (f : D * R * R) : bool := negb (Reqb (snd (fst f)) 0).

(** The columns of spacecraft rows. *)
Definition columns (rows : list sc_row) : scdata :=
  mk_sc (map row_start rows) (map row_stop rows) (map row_live rows) (map (fun r => fst (row_dir r)) rows) (map (fun r => snd (row_dir r)) rows).
(** What a row adds to the exposure at an energy. *)
Definition exposure_of (eff_area efficiency : R -> R -> R) (inclination : vec3 -> R) (cuts gtis : list (R * R)) (energy : R) (r : sc_row) : R :=
  if Rle_dec (inclination (snd (row_dir r))) 90
  then eff_area energy ((row_start r + row_stop r) / 2) * row_live r * good_share cuts gtis (row_start r) (row_stop r)
       * efficiency energy (row_live r / (row_stop r - row_start r))
  else 0.
(** The tolerance of the look-up by time, a hundred-thousandth of a second; any row, for [nth]. *)
Definition tol : R := 1 / 100000.
Definition row0 : sc_row := mk_ft2 0 0 0 ((0, 0, 0), (0, 0, 0)).
(** A vector of length 1 in the direction of a mixture of two vectors. *)
Definition points_along (a : vec3) (f : R) (u w : vec3) : Prop :=
  exists c, 0 < c /\
    fst (fst a) = c * ((1 - f) * fst (fst u) + f * fst (fst w)) /\
    snd (fst a) = c * ((1 - f) * snd (fst u) + f * snd (fst w)) /\
    snd a = c * ((1 - f) * snd u + f * snd w) /\
    fst (fst a) * fst (fst a) + snd (fst a) * snd (fst a) + snd a * snd a = 1.
(** The mixture is no null vector. *)
Definition mixable (f : R) (u w : vec3) : Prop :=
  (1 - f) * fst (fst u) + f * fst (fst w) <> 0 \/ (1 - f) * snd (fst u) + f * snd (fst w) <> 0 \/ (1 - f) * snd u + f * snd w <> 0.

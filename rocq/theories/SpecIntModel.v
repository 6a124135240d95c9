(** The integral() methods of the spectral functions (C36).  True values in the order of addParam. *)
From Coq Require Import Reals.
From Verif Require Import Base DerivSpec SpecFn SpecExpModel SpecBrkModel.
Local Open Scope R_scope.

(** src/PowerLaw2.cxx:120-136 *)
Definition PowerLaw2_integral (t : list R) (xmin xmax : R) : option R :=
  match t with
  | [NN; index; x1; x2] =>
      let o := 1 - - index in
      pb <-? rpow xmax o; pa <-? rpow xmin o; p2 <-? rpow x2 o; p1 <-? rpow x1 o; q <-? rdiv (pb - pa) (p2 - p1); Some (NN * q)
  | _ => None
  end.
(** src/BrokenPowerLaw2.cxx:180-216, src/BrokenPowerLaw3.cxx:152-195: the same formula, for a normalisation [n0] and a
    break [x0]; [o1] and [o2] are one plus the indices. *)
Definition broken_integral (n0 x0 o1 o2 x_min x_max : R) : option R :=
  let swap := Rltd x_max x_min in
  let xmin := if swap then x_max else x_min in
  let xmax := if swap then x_min else x_max in
  let prefactor := if swap then -1 else 1 in
  a <-? rdiv xmin x0; b <-? rdiv xmax x0;
  my <-? (if Rltd xmin x0 && negb (Rltd xmax x0) then
            p1 <-? rpow a o1; p2 <-? rpow b o2; r1 <-? rdiv (1 - p1) o1; r2 <-? rdiv (p2 - 1) o2; Some (n0 * (r1 + r2))
          else if Rltd x0 xmin then
            p2 <-? rpow b o2; p1 <-? rpow a o2; rdiv (n0 * (p2 - p1)) o2
          else
            p2 <-? rpow b o1; p1 <-? rpow a o1; rdiv (n0 * (p2 - p1)) o1);
  Some (prefactor * my).
Definition BPL2_integral (t : list R) (x_min x_max : R) : option R :=
  match t with
  | [NN; index1; index2; x0; x1; x2] =>
      n0 <-? BPL2_N0 NN index1 index2 x0 x1 x2; broken_integral n0 x0 (1 - - index1) (1 - - index2) x_min x_max
  | _ => None
  end.
Definition BPL3_integral (t : list R) (x_min x_max : R) : option R :=
  match t with
  | [F1; i1; F2; i2; x1min; x1max; x2min; x2max] =>
      x0 <-? BPL3_x0 F1 i1 F2 i2 x1min x1max x2min x2max; n0 <-? BPL3_N0 x0 F1 i1 x1min x1max;
      broken_integral n0 x0 (1 + i1) (1 + i2) x_min x_max
  | _ => None
  end.

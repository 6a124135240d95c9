(** What a user expects of vectors of maps and of the files they are saved in. *)
From Coq Require Import Reals String Sorted DecimalString.
From Verif Require Import Base AccumModel AccumProofs SmapModel SmapSpec VmapModel.
Local Open Scope nat_scope.
Local Open Scope list_scope.

(** ** Source maps and vectors *)
(** The value stored for pixel number [i], if there is one. *)
Definition stored_at {F} (img : pixels F) (i : nat) : option F :=
  match img with
  | Whole m => nth_error m i
  | Few l => option_map snd (find (fun e => fst e =? i) l)
  end.
Definition well_made {F D} (m : vmap F D) : Prop :=
  0 < vm_np m /\ length (vm_spec m) = vm_ne m /\
  match vm_img m with
  | Whole i => length i = vm_ne m * vm_np m
  | Few l => StronglySorted lt (map fst l) /\ List.Forall (fun e => fst e < vm_ne m * vm_np m) l
  end.
(** The spectral values are those of the current parameters of the source. *)
Definition up_to_date {F D} (m : vmap F D) : Prop := vm_src m = Some (vm_spec m).
(** The planes asked for, "-1" standing for all of them. *)
Definition planes {F D} (m : vmap F D) (kmin : nat) (K : Z) (kmax : nat) : Prop :=
  kmin <= kmax <= vm_ne m /\ (K = Z.of_nat kmax \/ (K < 0)%Z /\ kmax = vm_ne m).
(** The first pixel after the planes asked for is not among the pixels of a sparse map. *)
Definition clear_end {F D} (m : vmap F D) (kmax : nat) : Prop :=
  match vm_img m with Few l => ~ In (kmax * vm_np m) (map fst l) | Whole _ => True end.

(** [v] holds [h] of the old value, of the stored value and of the factor of the plane, for every pixel of the planes;
    pixels that are not stored are left alone. *)
Definition pixelwise {F D} (h : F -> F -> D -> F) (factor : nat -> option D) (m : vmap F D) (kmin kmax : nat) (old v : list F) : Prop :=
  length v = length old /\
  forall k p, kmin <= k < kmax -> p < vm_np m ->
    exists o f, nth_error old ((k - kmin) * vm_np m + p) = Some o /\ factor k = Some f /\
      nth_error v ((k - kmin) * vm_np m + p) =
        Some (match stored_at (vm_img m) (k * vm_np m + p) with Some x => h o x f | None => o end).

(** The same sky stored in two ways. *)
Definition same_sky {F D} (zero : F) (a b : vmap F D) : Prop :=
  vm_np a = vm_np b /\ vm_ne a = vm_ne b /\ vm_spec a = vm_spec b /\ vm_src a = vm_src b /\
  forall i, i < vm_ne a * vm_np a ->
    match stored_at (vm_img a) i with Some x => x | None => zero end =
    match stored_at (vm_img b) i with Some x => x | None => zero end.

(** Exact arithmetic. *)
Definition radd (o x f : R) : R := (o + x * f)%R.
Definition rsub (o x f : R) : R := (o - x * f)%R.
Definition brightness (m : vmap R R) (k p : nat) : R :=
  match stored_at (vm_img m) (k * vm_np m + p) with Some x => (x * nth k (vm_spec m) 0)%R | None => 0%R end.

(** ** Maps and spectra of models *)
(** The map a source has: the one in memory, or else the one that would be made. *)
Definition map_of (build : string -> option smap) (c : cache) (n : string) : option smap :=
  match cached c n with Some s => Some s | None => build n end.
(** Pixels of weight zero or less are left out of a masked map. *)
Definition seen (use_mask : bool) (s : smap) (k p : nat) : R :=
  if use_mask then (if Rle_dec (weight s k p) 0 then 0%R else counts_at s (sm_spec s) k p) else counts_at s (sm_spec s) k p.
(** The filled pixels of plane [k], as positions in the list of filled pixels. *)
Definition filled (dc : dcache) (k : nat) : list nat :=
  seq (nth k (dc_first dc) 0) (nth (S k) (dc_first dc) 0 - nth k (dc_first dc) 0).
Definition observed (dc : dcache) (data : list R) (np k j : nat) : R := nth (k * np + nth j (dc_filled dc) 0) data 0%R.
(** The observed counts of plane [k] shared out in proportion to the predictions. *)
Definition share (dc : dcache) (data : list R) (np : nat) (model : list R) (s : smap) (k : nat) : R :=
  Rsum (map (fun j => counts_at s (sm_spec s) k (nth j (dc_filled dc) 0%nat) / nth j model 0 * observed dc data np k j)%R (filled dc k)).

(** ** Files *)
(** The file the [i]-th of [n] sources is saved in. *)
Definition file_of (base : string) (n i : nat) : string :=
  if n <=? 499 then base else (base ++ "_" ++ NilZero.string_of_uint (Nat.to_uint (i / 500)) ++ ".fits")%string.

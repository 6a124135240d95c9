(** What the likelihood of a set of sources is, without any cache: for C23. *)
From Coq Require Import Reals.
From Verif Require Import Base SMap BinnedModel AccumModel AccumProofs.

(** Counts of one source in a pixel, and in an energy bin, when everything is computed for its
    current parameters. *)
Definition own_counts (ph : physics) (ev : Z) (s : src) (j : nat) : R := nth j (ph_cnt ph ev (s_img s) (s_par s) (s_img s, s_par s)) 0%R.
Definition own_total (ph : physics) (ev : Z) (s : src) (k : nat) : R :=
  if s_free s then nth k (ph_tot ph ev ev (s_img s, s_par s)) 0%R else nth k (ph_npr ph ev (s_img s) (s_par s) (s_img s, s_par s)) 0%R.
(** The model and the predicted number of counts of a set of sources, computed from nothing. *)
Definition model_of (ph : physics) (ev : Z) (srcs : SMap.smap src) (j : nat) : R := Rsum (map (fun ns => own_counts ph ev (snd ns) j) srcs).
Definition total_of (ph : physics) (ev : Z) (srcs : SMap.smap src) (kmin kmax : nat) : R :=
  Rsum (map (fun k => Rsum (map (fun ns => own_total ph ev (snd ns) k) srcs)) (seq kmin (kmax - kmin))).

(** The maps have one entry per filled pixel and per energy bin. *)
Definition sizes_ok (ph : physics) (nfilled nbins : nat) : Prop :=
  (forall ev i p q, length (ph_cnt ph ev i p q) = nfilled) /\ (forall ev i p q, length (ph_npr ph ev i p q) = nbins) /\ (forall f ev q, length (ph_tot ph f ev q) = nbins).
(** Energy dispersion is not applied through correction factors: the counts of a map do not
    depend on what its dispersion cache was computed for. *)
Definition no_corrections (ph : physics) (ev : Z) : Prop :=
  (forall i p q q', ph_cnt ph ev i p q = ph_cnt ph ev i p q') /\ (forall i p q q', ph_npr ph ev i p q = ph_npr ph ev i p q').
(** The offsets of the filled pixels of the energy bins are increasing. *)
Definition offsets_ok (first : list nat) (nfilled nbins : nat) : Prop :=
  length first = S nbins /\ nth nbins first 0 = nfilled /\ forall a b, a <= b -> b <= nbins -> nth a first 0 <= nth b first 0.

(** Ordinary calls: a source that is added under a name always has the same map; maps are not
    replaced by hand, the dispersion setting is not changed, and automatic updates stay on. *)
Definition ordinary (image_of : Z -> Z) (nbins : nat) (o : op) : Prop :=
  match o with
  | OAdd n s => s_img s = image_of n /\ s_par s <> []
  | OSetParam _ p => p <> []
  | OSetFreeValues f => forall n p, p <> [] -> f n p <> []
  | OKlims a b => a <= b /\ b <= nbins
  | OSetEdisp _ | OSetImage _ _ => False
  | OUpdateFixed b => b = true
  | _ => True
  end.
(** No source is deleted between a change to it and the next evaluation of the likelihood.
    [touched] are the sources changed since the last evaluation. *)
Fixpoint settled (touched : list Z) (l : list op) : Prop :=
  match l with
  | [] => True
  | OSetParam n _ :: l' => settled (n :: touched) l'
  | OSetFree n _ :: l' => settled (n :: touched) l'
  | OValue :: l' => settled [] l'
  | ODelete n :: l' => ~ In n touched /\ settled touched l'
  | _ :: l' => settled touched l'
  end.

(** The sources of a history, by what each call is documented to do to them, and the selected
    energy bins. *)
Definition source_step (m : SMap.smap src) (o : op) : SMap.smap src :=
  match o with
  | OAdd n s => match mfind n m with Some _ => m | None => minsert n s m end
  | ODelete n => merase n m
  | OSetParam n p => match mfind n m with Some s => minsert n (mk_bsrc (s_id s) (s_img s) p (s_free s)) m | None => m end
  | OSetFree n b => match mfind n m with Some s => minsert n (mk_bsrc (s_id s) (s_img s) (s_par s) b) m | None => m end
  | OSetFreeValues f => map (fun ns => (fst ns, let s := snd ns in if s_free s then mk_bsrc (s_id s) (s_img s) (f (fst ns) (s_par s)) true else s)) m
  | _ => m
  end.
Definition sources_after (l : list op) : SMap.smap src := fold_left source_step l [].
Definition window_step (w : nat * nat) (o : op) : nat * nat := match o with OKlims a b => (a, b) | _ => w end.
Definition window_after (nbins : nat) (l : list op) : nat * nat := fold_left window_step l (0, nbins).
(** The calls after which getFreeDerivs is documented to see the current model. *)
Definition sets_model (o : op) : bool := match o with OSetFreeValues _ | OSync | OKlims _ _ | OValue => true | _ => false end.

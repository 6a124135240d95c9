(** C84/C184: checks of the data selections of the tools. *)
From Coq Require Import Reals Lra ZArith NArith List Bool Arith Ascii String Sorted Lia.
From Verif Require Import Base AccumModel CutModel CutSpec CutProofs.
Import ListNotations.
Local Open Scope string_scope.
Local Open Scope list_scope.
Local Open Scope nat_scope.

(** ** C84 *)
Lemma gtis_filter c : filter is_gti c = map Gti (gtis c).
Proof. induction c as [|[] c IH]; cbn [filter is_gti gtis flat_map map app]; try exact IH; try reflexivity. f_equal. exact IH. Qed.
Lemma Forall2_map_both {A B} (f : A -> B) (P : B -> B -> Prop) l l' : Forall2 P (map f l) (map f l') <-> Forall2 (fun x y => P (f x) (f y)) l l'.
Proof.
  revert l'. induction l as [|a l IH]; intros [|b l']; cbn [map]; split; intros H; try constructor; inversion H; subst; auto; apply IH; assumption.
Qed.
(** The time check has nothing to report exactly if the good time intervals agree one by one. *)
Theorem C84_time_cuts cut_eq w c1 c2 : checkTimeCuts cut_eq w c1 c2 = Ok None <-> Forall2 (fun l1 l2 => cut_eq (Gti l1) (Gti l2) = true) (gtis c1) (gtis c2).
Proof.
  rewrite <- (Forall2_map_both Gti (fun x y => cut_eq x y = true)), <- !gtis_filter.
  rewrite <- compare_ok. unfold checkTimeCuts. destruct (compare_gtis cut_eq c1 c2) as ([] & [d|]); cbn [fst]; destruct w; split; congruence.
Qed.
Print Assumptions C84_time_cuts.
(** Otherwise, for files with one list of intervals each, the sums of the differences of their starts and stops are reported,
    or an exception is raised. *)
Theorem C84_time_differences cut_eq w c1 c2 l1 l2 : gtis c1 = [l1] -> gtis c2 = [l2] -> cut_eq (Gti l1) (Gti l2) = false ->
  checkTimeCuts cut_eq w c1 c2 = if w then Ok (Some (rsum (map (fun p => Rabs (fst (fst p) - fst (snd p))) (combine l1 l2)), rsum (map (fun p => Rabs (snd (fst p) - snd (snd p))) (combine l1 l2)))) else Throw.
Proof.
  intros E1 E2 Q. unfold checkTimeCuts, compare_gtis. rewrite !gtis_filter, E1, E2. cbn [map length Nat.eqb combine fold_left fst snd ivs_of]. rewrite Q. cbn [andb]. rewrite gti_diffs_spec. cbn [fst snd]. now rewrite !Rplus_0_l.
Qed.
Print Assumptions C84_time_differences.
Definition eq_example (a b : cut) : bool := match a, b with Gti [(x, y)], Gti [(x', y')] => if Req_EM_T x x' then if Req_EM_T y y' then true else false else false | _, _ => false end.
Example C84_time_case : checkTimeCuts eq_example true [Gti [(0, 10)]]%R [BitMask "EVENT_TYPE" 3; Range "TIME" 0 10; Gti [(0, 10)]]%R = Ok None /\ exists a b, checkTimeCuts eq_example true [Gti [(0, 10)]]%R [Gti [(1, 8)]]%R = Ok (Some (a, b)) /\ a = 1%R /\ b = 2%R.
Proof.
  split.
  - apply C84_time_cuts. cbn [gtis flat_map app]. constructor; [|constructor]. unfold eq_example. destruct (Req_EM_T 0 0), (Req_EM_T 10 10); try reflexivity; lra.
  - do 2 eexists. split; [apply (C84_time_differences _ true _ _ [(0, 10)]%R [(1, 8)]%R); try reflexivity; unfold eq_example; destruct (Req_EM_T 0 1); [lra|reflexivity]|]. cbn. rewrite !Rplus_0_r. replace (0 - 1)%R with (-1)%R by lra. replace (10 - 8)%R with 2%R by lra. rewrite Rabs_left, Rabs_right by lra. split; lra.
Qed.

(** Event files are accepted together exactly if the selections of any two of them agree, apart from the times. *)
Theorem C84_files cuts_eq nogti files : (forall a, nogti a a = true) -> (forall a b, nogti a b = true -> nogti b a = true) -> (forall a b c, nogti a b = true -> nogti b c = true -> nogti a c = true) ->
  ((exists w, checkFiles cuts_eq nogti files = Ok w) <-> forall f g, In f files -> In g files -> nogti f g = true).
Proof.
  intros Rf Sy Tr. destruct files as [|f l]; [split; [intros _ ? ? []|intros _; exists []; reflexivity]|]. rewrite files_ok. split.
  - intros H a b Ha Hb. assert (K : forall x, In x (f :: l) -> nogti f x = true) by (intros x [<-|I]; [apply Rf|now apply H]). apply (Tr _ f); [apply Sy|]; now apply K.
  - intros H g Hg. apply H; [now left|now right].
Qed.
Print Assumptions C84_files.
Example C84_files_case : exists w, checkFiles (fun _ _ => true) (fun a b => length (filter (fun c => negb (is_gti c)) a) =? length (filter (fun c => negb (is_gti c)) b)) [[Gti []]; []; [Gti [(0, 1)%R]]] = Ok w.
Proof. eexists. reflexivity. Qed.

(** An unbinned exposure map whose other selections agree is accepted exactly if it accepts every energy that the events'
    cuts accept; it is refused with an exception otherwise. *)
Theorem C84_expmap cuts_eq ev mp er mr : energies_of ev er -> energies_of mp mr -> mr <> [] -> (exists e, accepts er e) -> er <> [] ->
  cuts_eq (filter (fun c => negb (is_energy c) && negb (is_irf_version c)) ev) (filter (fun c => negb (is_energy c) && negb (is_irf_version c)) mp) = true ->
  (checkExpMapCuts cuts_eq ev mp = Ok tt <-> forall e, accepts er e -> accepts mr e) /\ (checkExpMapCuts cuts_eq ev mp = Ok tt \/ checkExpMapCuts cuts_eq ev mp = Throw).
Proof. apply expmap_ok. Qed.
Print Assumptions C84_expmap.
(** One with other selections is refused. *)
Theorem C84_expmap_other cuts_eq ev mp er mr : energies_of ev er -> energies_of mp mr ->
  cuts_eq (filter (fun c => negb (is_energy c) && negb (is_irf_version c)) ev) (filter (fun c => negb (is_energy c) && negb (is_irf_version c)) mp) = false -> checkExpMapCuts cuts_eq ev mp = Throw.
Proof. intros E1 E2 Q. unfold checkExpMapCuts. rewrite (energy_ranges_ok _ _ E1), (energy_ranges_ok _ _ E2). cbn [obind]. now rewrite Q. Qed.
Print Assumptions C84_expmap_other.
Example C84_expmap_case : checkExpMapCuts (fun _ _ => true) [Range "ENERGY" 100 1000; Range "ENERGY" 200 2000]%R [Range "ENERGY" 50 1500]%R = Ok tt.
Proof.
  apply (C84_expmap (fun _ _ => true) _ _ [(100, 1000); (200, 2000)]%R [(50, 1500)]%R); try reflexivity; try discriminate.
  - exists 500%R. intros lo hi [Q|[Q|[]]]; injection Q as <- <-; lra.
  - intros e H lo hi [Q|[]]; injection Q as <- <-. pose proof (H 100%R 1000%R ltac:(now left)). lra.
Qed.

(** The event types are the bits of the mask, in order; they give the mask back. *)
Theorem C84_event_types cuts default : let l := getSelectedEvtTypes cuts default in let m := evtype_mask cuts default in
  (forall j, In j l <-> j < 32 /\ N.testbit m (N.of_nat j) = true) /\ NoDup l /\ ((m < 2 ^ 32)%N -> nsum (map (fun j => (2 ^ N.of_nat j)%N) l) = m).
Proof.
  intros l m. subst l. unfold getSelectedEvtTypes. fold m. split; [|split].
  - intros j. rewrite filter_In, in_seq. split; intros (A & B); (split; [lia|exact B]).
  - apply NoDup_filter, seq_NoDup.
  - intros Hm. rewrite bits_sum. apply N.mod_small. exact Hm.
Qed.
Print Assumptions C84_event_types.
(** The mask is that of the last EVENT_TYPE cut, or the default. *)
Theorem C84_mask default : (forall a m b, (forall k, ~ In (BitMask "EVENT_TYPE" k) b) -> evtype_mask (a ++ BitMask "EVENT_TYPE" m :: b) default = m) /\
  (forall a, (forall k, ~ In (BitMask "EVENT_TYPE" k) a) -> evtype_mask a default = default).
Proof.
  assert (K : forall b m, (forall k, ~ In (BitMask "EVENT_TYPE" k) b) -> evtype_mask b m = m).
  { induction b as [|c b IH]; intros m H; [reflexivity|]. unfold evtype_mask in *. cbn [fold_left]. rewrite IH by (intros k I; apply (H k); now right). destruct c; try reflexivity. destruct (String.eqb_spec col "EVENT_TYPE") as [->|_]; [|reflexivity]. exfalso. apply (H mask). now left. }
  split; [|intros a H; now apply K]. intros a m b H. unfold evtype_mask. rewrite fold_left_app. cbn [fold_left]. change (String.eqb "EVENT_TYPE" "EVENT_TYPE") with true. cbn iota. apply K, H.
Qed.
Print Assumptions C84_mask.
Example C84_event_types_case : getSelectedEvtTypes [BitMask "EVENT_CLASS" 128; BitMask "EVENT_TYPE" 12] 3 = [2; 3] /\ getSelectedEvtTypes [] 3 = [0; 1].
Proof. split; reflexivity. Qed.

(** The event types of the response functions, with [evtype] = m: those of m for named response functions, and with CALDB
    if the file that has the event class has no event types; those of that file otherwise. *)
Theorem C84_response_types read irf_cuts p unbinned file m : cuts_file p unbinned = Ok file -> p_evtype p = Some m ->
  (p_irfs p <> "CALDB" -> has_colon (p_irfs p) = false -> exists c, response_cuts read irf_cuts p unbinned = Ok c /\ evtype_mask c 3 = m) /\
  (forall c0, p_irfs p = "CALDB" -> read file = Ok c0 -> has_mask "EVENT_CLASS" c0 = true ->
    exists c, response_cuts read irf_cuts p unbinned = Ok c /\ evtype_mask c 3 = if has_mask "EVENT_TYPE" c0 then evtype_mask c0 3 else m) /\
  (p_irfs p <> "CALDB" -> has_colon (p_irfs p) = true -> response_cuts read irf_cuts p unbinned = Throw).
Proof.
  intros F Em. unfold response_cuts. rewrite F, Em. cbn [obind]. split; [|split].
  - intros H C. apply String.eqb_neq in H. rewrite H, C. eexists. split; [reflexivity|]. apply (C84_mask 3). intros k [].
  - intros c0 -> Er Hc. change (String.eqb "CALDB" "CALDB") with true. cbn iota. rewrite Er. cbn [obind]. rewrite Hc. cbn [obind]. destruct (has_mask "EVENT_TYPE" c0); eexists; (split; [reflexivity|]); [reflexivity|]. apply (C84_mask 3). intros k [].
  - intros H C. apply String.eqb_neq in H. now rewrite H, C.
Qed.
Print Assumptions C84_response_types.
(** Where the selection is looked up. *)
Theorem C84_response_file p : (forall f, p_expmap p = Some f -> f <> "none" -> cuts_file p true = Ok f) /\ (forall f, (p_expmap p = Some "none" \/ p_expmap p = None) -> p_evfile p = Some f -> cuts_file p true = Ok f) /\
  (forall f, p_bexpmap p = Some f -> cuts_file p false = Ok f) /\ (forall f, p_bexpmap p = None -> p_cmap p = Some f -> cuts_file p false = Ok f).
Proof.
  unfold cuts_file. split; [|split; [|split]].
  - intros f -> H. apply String.eqb_neq in H. now rewrite H.
  - intros f [-> | ->] ->; reflexivity.
  - now intros f ->.
  - now intros f -> ->.
Qed.
Print Assumptions C84_response_file.
Definition gtlike : pars := mk_pars "CALDB" (Some 3%N) (Some "expmap.fits") (Some "events.fits") (Some "bexpmap.fits") (Some "cmap.fits") None.
Example C84_response_case : exists c, response_cuts (fun f => Ok [BitMask "EVENT_CLASS" 128]) (fun _ => []) gtlike true = Ok c /\ evtype_mask c 3 = 3%N.
Proof. eexists. split; reflexivity. Qed.

(** A counts map in an image is accepted exactly if the exposure map covers the pixels of its border. *)
Theorem C84_border (D : Type) (dir : nat -> nat -> option D) covered n1 n2 : 1 <= n1 -> 1 <= n2 ->
  (checkExposureMap_wcs dir covered n1 n2 = Ok tt <-> forall i j, on_border n1 n2 i j -> exists d, dir i j = Some d /\ covered d = true) /\ (checkExposureMap_wcs dir covered n1 n2 = Ok tt \/ checkExposureMap_wcs dir covered n1 n2 = Throw).
Proof. apply border_check. Qed.
Print Assumptions C84_border.
Example C84_border_case : checkExposureMap_wcs (fun i j => Some (i, j)) (fun d => (fst d <? 5) && (snd d <? 4)) 4 3 = Ok tt /\ checkExposureMap_wcs (fun i j => Some (i, j)) (fun d => (fst d <? 5) && (snd d <? 4)) 5 3 = Throw.
Proof. split; reflexivity. Qed.

(** ** C184 *)
(** The tools never refuse files for their times: intervals that are days apart give a warning. *)
Theorem C84_gti_warning_refuted : (forall cut_eq c1 c2, checkTimeCuts cut_eq true c1 c2 <> Throw) /\ exists d, checkTimeCuts eq_example true [Gti [(0, 86400)]]%R [Gti [(864000, 950400)]]%R = Ok (Some d).
Proof.
  split.
  - intros cut_eq c1 c2. unfold checkTimeCuts. destruct (compare_gtis cut_eq c1 c2) as ([] & [d|]); discriminate.
  - eexists. apply (C84_time_differences _ true _ _ [(0, 86400)]%R [(864000, 950400)]%R); try reflexivity. unfold eq_example. destruct (Req_EM_T 0 864000); [lra|reflexivity].
Qed.
Print Assumptions C84_gti_warning_refuted.
(** If only one file has good time intervals, numbers that were never set are reported. *)
Theorem C84_gti_number_refuted cut_eq w c1 c2 : length (gtis c1) <> length (gtis c2) -> checkTimeCuts cut_eq w c1 c2 = UB.
Proof. intros H. unfold checkTimeCuts, compare_gtis. rewrite !gtis_filter, !map_length. apply Nat.eqb_neq in H. now rewrite H. Qed.
Print Assumptions C84_gti_number_refuted.
(** If one file has more intervals, differences of zero are reported. *)
Theorem C84_gti_zero_refuted cut_eq l l' : cut_eq (Gti l) (Gti (l ++ l')) = false -> checkTimeCuts cut_eq true [Gti l] [Gti (l ++ l')] = Ok (Some (0, 0)%R).
Proof.
  intros Q. rewrite (C84_time_differences cut_eq true [Gti l] [Gti (l ++ l')] l (l ++ l') eq_refl eq_refl Q).
  assert (K : forall g : R * R -> R, rsum (map (fun p => Rabs (g (fst p) - g (snd p))) (combine l (l ++ l'))) = 0%R).
  { clear Q. intros g. induction l as [|x l IH]; [reflexivity|]. unfold rsum in *. cbn [app combine map fold_right fst snd]. rewrite IH, Rminus_eq_0, Rabs_R0. lra. }
  now rewrite (K fst), (K snd).
Qed.
Print Assumptions C84_gti_zero_refuted.

(** Without energy cuts, which accept all energies, events and exposure map are refused, even the same ones. *)
Theorem C84_no_energy_refuted cuts_eq cuts : (forall lo hi, ~ In (Range "ENERGY" lo hi) cuts) -> (forall hi, ~ In (RangeMax "ENERGY" hi) cuts) -> checkExpMapCuts cuts_eq cuts cuts = Throw.
Proof.
  intros H1 H2. assert (E : filter is_energy cuts = []).
  { induction cuts as [|c l IH]; [reflexivity|]. cbn [filter]. rewrite IH; [|intros lo hi I; apply (H1 lo hi); now right|intros hi I; apply (H2 hi); now right]. destruct c; cbn [is_energy]; try reflexivity; destruct (String.eqb_spec col "ENERGY") as [->|_]; try reflexivity; exfalso; [eapply H1|eapply H2]; left; reflexivity. }
  unfold checkExpMapCuts, energy_ranges. rewrite E. cbn [mfold obind]. destruct (cuts_eq _ _); reflexivity.
Qed.
Print Assumptions C84_no_energy_refuted.

(** An exposure map with a hole inside the counts map is accepted. *)
Theorem C84_hole_refuted : ~ forall (covered : nat * nat -> bool) n1 n2, checkExposureMap_wcs (fun i j => Some (i, j)) covered n1 n2 = Ok tt -> forall i j, 1 <= i <= n1 -> 1 <= j <= n2 -> covered (i, j) = true.
Proof. intros H. specialize (H (fun d => negb ((fst d =? 2) && (snd d =? 2))) 3 3 eq_refl 2 2 ltac:(lia) ltac:(lia)). discriminate. Qed.
Print Assumptions C84_hole_refuted.
(** A counts map with a corner outside of the projection, as all-sky maps have, is refused whatever the exposure map covers. *)
Theorem C84_corner_refuted (D : Type) (dir : nat -> nat -> option D) covered n1 n2 : 1 <= n1 -> 1 <= n2 -> dir 1 1 = None -> checkExposureMap_wcs dir covered n1 n2 = Throw.
Proof.
  intros H1 H2 Hd. destruct (border_check dir covered n1 n2 H1 H2) as (B & [E|E]); [|exact E]. rewrite B in E. destruct (E 1 1) as (d & Q & _); [repeat split; lia|]. congruence.
Qed.
Print Assumptions C84_corner_refuted.

(** With CALDB, the event types asked for are not used if the file has some. *)
Theorem C84_evtype_refuted : ~ forall read irf_cuts p unbinned m c, p_evtype p = Some m -> response_cuts read irf_cuts p unbinned = Ok c -> evtype_mask c 3 = m.
Proof.
  intros H. specialize (H (fun _ => Ok [BitMask "EVENT_CLASS" 128; BitMask "EVENT_TYPE" 3]) (fun _ => []) (mk_pars "CALDB" (Some 4%N) None (Some "events.fits") None None None) true 4%N _ eq_refl eq_refl). discriminate.
Qed.
Print Assumptions C84_evtype_refuted.
(** In an unbinned analysis whose exposure map has no event class, the event file is not looked at, but the counts map of
    binned analyses; without such a parameter there is an exception. *)
Theorem C84_unbinned_class_refuted : (exists read p c, p_evfile p = Some "events.fits" /\ read "events.fits" = Ok [BitMask "EVENT_CLASS" 128] /\ response_cuts read (fun _ => []) p true = Ok c /\ ~ In (BitMask "EVENT_CLASS" 128) c) /\
  (forall read irf_cuts p f c, p_irfs p = "CALDB" -> p_expmap p = Some f -> f <> "none" -> read f = Ok c -> has_mask "EVENT_CLASS" c = false -> p_cmap p = None -> p_srcmaps p = None -> response_cuts read irf_cuts p true = Throw).
Proof.
  split.
  - exists (fun f => if String.eqb f "events.fits" then Ok [BitMask "EVENT_CLASS" 128] else if String.eqb f "cmap.fits" then Ok [BitMask "EVENT_CLASS" 1024] else Ok []), gtlike. eexists. split; [reflexivity|]. split; [reflexivity|]. split; [reflexivity|]. intros [Q|[Q|[]]]; discriminate.
  - intros read irf_cuts p f c Hi He Hn Hr Hc H1 H2. unfold response_cuts, cuts_file. rewrite He. apply String.eqb_neq in Hn. rewrite Hn. cbn [obind]. rewrite Hi. change (String.eqb "CALDB" "CALDB") with true. cbn iota. rewrite Hr. cbn [obind]. rewrite Hc, H1, H2. reflexivity.
Qed.
Print Assumptions C84_unbinned_class_refuted.
(** In a binned analysis "none" is taken for the name of the exposure map. *)
Theorem C84_none_refuted read irf_cuts p : p_irfs p = "CALDB" -> p_bexpmap p = Some "none" -> read "none" = Throw -> response_cuts read irf_cuts p false = Throw.
Proof. intros Hi Hb Hr. unfold response_cuts, cuts_file. rewrite Hb. cbn [obind]. rewrite Hi. change (String.eqb "CALDB" "CALDB") with true. cbn iota. now rewrite Hr. Qed.
Print Assumptions C84_none_refuted.
(** Event classes outside of -1 to 4 select a name outside of the table. *)
Theorem C84_class_refuted lo l : ~ (-1 <= lo <= 4)%Z -> responseFuncs (inl lo :: l) "DC2" = UB.
Proof.
  intros H. unfold responseFuncs. cbn [String.eqb Ascii.eqb negb]. destruct (Z.ltb_spec (lo + 1) 0) as [A|A]; [reflexivity|]. unfold vec_get. rewrite (proj2 (nth_error_None respcombos (Z.to_nat (lo + 1)))); [reflexivity|]. cbn [respcombos length]. lia.
Qed.
Print Assumptions C84_class_refuted.

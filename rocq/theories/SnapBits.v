(** What each accessor of a status sees in the parts it is made of. *)
From Verif Require Import Base SMap SnapModel SnapSpec SnapProofs.
From Coq Require Import NArith.
Local Open Scope N_scope.

(** ** What each accessor sees in each part of a status *)
Lemma norm_value_changed_lor a b : norm_value_changed (N.lor a b) = norm_value_changed a || norm_value_changed b.
Proof. apply flag_lor. Qed.
Lemma norm_value_changed_p (v s p f : bool) : norm_value_changed (pst v s p f) = v.
Proof. destruct v, s, p, f; reflexivity. Qed.
Lemma norm_value_changed_g (s f : bool) : norm_value_changed (if s then if f then Source_Freed else Source_Fixed else 0) = false.
Proof. destruct s, f; reflexivity. Qed.
Lemma norm_value_changed_s (v s p f : bool) : norm_value_changed (N.shiftl (pst v s p f) Spec_Offset) = false.
Proof. destruct v, s, p, f; reflexivity. Qed.
Lemma norm_value_changed_x (v s p f : bool) : norm_value_changed (N.shiftl (pst v s p f) Spatial_Offset) = false.
Proof. destruct v, s, p, f; reflexivity. Qed.
Lemma norm_value_changed_st (f : bool) : norm_value_changed (sp_type f) = false.
Proof. destruct f; reflexivity. Qed.
Lemma norm_value_changed_xt (f : bool) : norm_value_changed (xp_type f) = false.
Proof. destruct f; reflexivity. Qed.
Lemma norm_status_changed_lor a b : norm_status_changed (N.lor a b) = norm_status_changed a || norm_status_changed b.
Proof. apply flag_lor. Qed.
Lemma norm_status_changed_p (v s p f : bool) : norm_status_changed (pst v s p f) = s.
Proof. destruct v, s, p, f; reflexivity. Qed.
Lemma norm_status_changed_g (s f : bool) : norm_status_changed (if s then if f then Source_Freed else Source_Fixed else 0) = false.
Proof. destruct s, f; reflexivity. Qed.
Lemma norm_status_changed_s (v s p f : bool) : norm_status_changed (N.shiftl (pst v s p f) Spec_Offset) = false.
Proof. destruct v, s, p, f; reflexivity. Qed.
Lemma norm_status_changed_x (v s p f : bool) : norm_status_changed (N.shiftl (pst v s p f) Spatial_Offset) = false.
Proof. destruct v, s, p, f; reflexivity. Qed.
Lemma norm_status_changed_st (f : bool) : norm_status_changed (sp_type f) = false.
Proof. destruct f; reflexivity. Qed.
Lemma norm_status_changed_xt (f : bool) : norm_status_changed (xp_type f) = false.
Proof. destruct f; reflexivity. Qed.
Lemma norm_prior_changed_lor a b : norm_prior_changed (N.lor a b) = norm_prior_changed a || norm_prior_changed b.
Proof. apply flag_lor. Qed.
Lemma norm_prior_changed_p (v s p f : bool) : norm_prior_changed (pst v s p f) = p.
Proof. destruct v, s, p, f; reflexivity. Qed.
Lemma norm_prior_changed_g (s f : bool) : norm_prior_changed (if s then if f then Source_Freed else Source_Fixed else 0) = false.
Proof. destruct s, f; reflexivity. Qed.
Lemma norm_prior_changed_s (v s p f : bool) : norm_prior_changed (N.shiftl (pst v s p f) Spec_Offset) = false.
Proof. destruct v, s, p, f; reflexivity. Qed.
Lemma norm_prior_changed_x (v s p f : bool) : norm_prior_changed (N.shiftl (pst v s p f) Spatial_Offset) = false.
Proof. destruct v, s, p, f; reflexivity. Qed.
Lemma norm_prior_changed_st (f : bool) : norm_prior_changed (sp_type f) = false.
Proof. destruct f; reflexivity. Qed.
Lemma norm_prior_changed_xt (f : bool) : norm_prior_changed (xp_type f) = false.
Proof. destruct f; reflexivity. Qed.
Lemma norm_changed_lor a b : norm_changed (N.lor a b) = norm_changed a || norm_changed b.
Proof. apply flag_lor. Qed.
Lemma norm_changed_p (v s p f : bool) : norm_changed (pst v s p f) = v || s || p.
Proof. destruct v, s, p, f; reflexivity. Qed.
Lemma norm_changed_g (s f : bool) : norm_changed (if s then if f then Source_Freed else Source_Fixed else 0) = false.
Proof. destruct s, f; reflexivity. Qed.
Lemma norm_changed_s (v s p f : bool) : norm_changed (N.shiftl (pst v s p f) Spec_Offset) = false.
Proof. destruct v, s, p, f; reflexivity. Qed.
Lemma norm_changed_x (v s p f : bool) : norm_changed (N.shiftl (pst v s p f) Spatial_Offset) = false.
Proof. destruct v, s, p, f; reflexivity. Qed.
Lemma norm_changed_st (f : bool) : norm_changed (sp_type f) = false.
Proof. destruct f; reflexivity. Qed.
Lemma norm_changed_xt (f : bool) : norm_changed (xp_type f) = false.
Proof. destruct f; reflexivity. Qed.
Lemma spec_changed_lor a b : spec_changed (N.lor a b) = spec_changed a || spec_changed b.
Proof. apply flag_lor. Qed.
Lemma spec_changed_p (v s p f : bool) : spec_changed (pst v s p f) = false.
Proof. destruct v, s, p, f; reflexivity. Qed.
Lemma spec_changed_g (s f : bool) : spec_changed (if s then if f then Source_Freed else Source_Fixed else 0) = false.
Proof. destruct s, f; reflexivity. Qed.
Lemma spec_changed_s (v s p f : bool) : spec_changed (N.shiftl (pst v s p f) Spec_Offset) = v || s || p.
Proof. destruct v, s, p, f; reflexivity. Qed.
Lemma spec_changed_x (v s p f : bool) : spec_changed (N.shiftl (pst v s p f) Spatial_Offset) = false.
Proof. destruct v, s, p, f; reflexivity. Qed.
Lemma spec_changed_st (f : bool) : spec_changed (sp_type f) = false.
Proof. destruct f; reflexivity. Qed.
Lemma spec_changed_xt (f : bool) : spec_changed (xp_type f) = false.
Proof. destruct f; reflexivity. Qed.
Lemma spec_free_changed_lor a b : spec_free_changed (N.lor a b) = spec_free_changed a || spec_free_changed b.
Proof. apply flag_lor. Qed.
Lemma spec_free_changed_p (v s p f : bool) : spec_free_changed (pst v s p f) = false.
Proof. destruct v, s, p, f; reflexivity. Qed.
Lemma spec_free_changed_g (s f : bool) : spec_free_changed (if s then if f then Source_Freed else Source_Fixed else 0) = false.
Proof. destruct s, f; reflexivity. Qed.
Lemma spec_free_changed_s (v s p f : bool) : spec_free_changed (N.shiftl (pst v s p f) Spec_Offset) = (v || s || p) && negb f.
Proof. destruct v, s, p, f; reflexivity. Qed.
Lemma spec_free_changed_x (v s p f : bool) : spec_free_changed (N.shiftl (pst v s p f) Spatial_Offset) = false.
Proof. destruct v, s, p, f; reflexivity. Qed.
Lemma spec_free_changed_st (f : bool) : spec_free_changed (sp_type f) = false.
Proof. destruct f; reflexivity. Qed.
Lemma spec_free_changed_xt (f : bool) : spec_free_changed (xp_type f) = false.
Proof. destruct f; reflexivity. Qed.
Lemma spec_fixed_changed_lor a b : spec_fixed_changed (N.lor a b) = spec_fixed_changed a || spec_fixed_changed b.
Proof. apply flag_lor. Qed.
Lemma spec_fixed_changed_p (v s p f : bool) : spec_fixed_changed (pst v s p f) = false.
Proof. destruct v, s, p, f; reflexivity. Qed.
Lemma spec_fixed_changed_g (s f : bool) : spec_fixed_changed (if s then if f then Source_Freed else Source_Fixed else 0) = false.
Proof. destruct s, f; reflexivity. Qed.
Lemma spec_fixed_changed_s (v s p f : bool) : spec_fixed_changed (N.shiftl (pst v s p f) Spec_Offset) = (v || s || p) && f.
Proof. destruct v, s, p, f; reflexivity. Qed.
Lemma spec_fixed_changed_x (v s p f : bool) : spec_fixed_changed (N.shiftl (pst v s p f) Spatial_Offset) = false.
Proof. destruct v, s, p, f; reflexivity. Qed.
Lemma spec_fixed_changed_st (f : bool) : spec_fixed_changed (sp_type f) = false.
Proof. destruct f; reflexivity. Qed.
Lemma spec_fixed_changed_xt (f : bool) : spec_fixed_changed (xp_type f) = false.
Proof. destruct f; reflexivity. Qed.
Lemma spatial_changed_lor a b : spatial_changed (N.lor a b) = spatial_changed a || spatial_changed b.
Proof. apply flag_lor. Qed.
Lemma spatial_changed_p (v s p f : bool) : spatial_changed (pst v s p f) = false.
Proof. destruct v, s, p, f; reflexivity. Qed.
Lemma spatial_changed_g (s f : bool) : spatial_changed (if s then if f then Source_Freed else Source_Fixed else 0) = false.
Proof. destruct s, f; reflexivity. Qed.
Lemma spatial_changed_s (v s p f : bool) : spatial_changed (N.shiftl (pst v s p f) Spec_Offset) = false.
Proof. destruct v, s, p, f; reflexivity. Qed.
Lemma spatial_changed_x (v s p f : bool) : spatial_changed (N.shiftl (pst v s p f) Spatial_Offset) = v || s || p.
Proof. destruct v, s, p, f; reflexivity. Qed.
Lemma spatial_changed_st (f : bool) : spatial_changed (sp_type f) = false.
Proof. destruct f; reflexivity. Qed.
Lemma spatial_changed_xt (f : bool) : spatial_changed (xp_type f) = false.
Proof. destruct f; reflexivity. Qed.
Lemma spec_model_type_changed_lor a b : spec_model_type_changed (N.lor a b) = spec_model_type_changed a || spec_model_type_changed b.
Proof. apply flag_lor. Qed.
Lemma spec_model_type_changed_p (v s p f : bool) : spec_model_type_changed (pst v s p f) = false.
Proof. destruct v, s, p, f; reflexivity. Qed.
Lemma spec_model_type_changed_g (s f : bool) : spec_model_type_changed (if s then if f then Source_Freed else Source_Fixed else 0) = false.
Proof. destruct s, f; reflexivity. Qed.
Lemma spec_model_type_changed_s (v s p f : bool) : spec_model_type_changed (N.shiftl (pst v s p f) Spec_Offset) = false.
Proof. destruct v, s, p, f; reflexivity. Qed.
Lemma spec_model_type_changed_x (v s p f : bool) : spec_model_type_changed (N.shiftl (pst v s p f) Spatial_Offset) = false.
Proof. destruct v, s, p, f; reflexivity. Qed.
Lemma spec_model_type_changed_st (f : bool) : spec_model_type_changed (sp_type f) = true.
Proof. destruct f; reflexivity. Qed.
Lemma spec_model_type_changed_xt (f : bool) : spec_model_type_changed (xp_type f) = false.
Proof. destruct f; reflexivity. Qed.
Lemma spatial_model_type_changed_lor a b : spatial_model_type_changed (N.lor a b) = spatial_model_type_changed a || spatial_model_type_changed b.
Proof. apply flag_lor. Qed.
Lemma spatial_model_type_changed_p (v s p f : bool) : spatial_model_type_changed (pst v s p f) = false.
Proof. destruct v, s, p, f; reflexivity. Qed.
Lemma spatial_model_type_changed_g (s f : bool) : spatial_model_type_changed (if s then if f then Source_Freed else Source_Fixed else 0) = false.
Proof. destruct s, f; reflexivity. Qed.
Lemma spatial_model_type_changed_s (v s p f : bool) : spatial_model_type_changed (N.shiftl (pst v s p f) Spec_Offset) = false.
Proof. destruct v, s, p, f; reflexivity. Qed.
Lemma spatial_model_type_changed_x (v s p f : bool) : spatial_model_type_changed (N.shiftl (pst v s p f) Spatial_Offset) = false.
Proof. destruct v, s, p, f; reflexivity. Qed.
Lemma spatial_model_type_changed_st (f : bool) : spatial_model_type_changed (sp_type f) = false.
Proof. destruct f; reflexivity. Qed.
Lemma spatial_model_type_changed_xt (f : bool) : spatial_model_type_changed (xp_type f) = true.
Proof. destruct f; reflexivity. Qed.
Lemma model_changed_lor a b : model_changed (N.lor a b) = model_changed a || model_changed b.
Proof. apply flag_lor. Qed.
Lemma model_changed_p (v s p f : bool) : model_changed (pst v s p f) = false.
Proof. destruct v, s, p, f; reflexivity. Qed.
Lemma model_changed_g (s f : bool) : model_changed (if s then if f then Source_Freed else Source_Fixed else 0) = false.
Proof. destruct s, f; reflexivity. Qed.
Lemma model_changed_s (v s p f : bool) : model_changed (N.shiftl (pst v s p f) Spec_Offset) = v || s || p.
Proof. destruct v, s, p, f; reflexivity. Qed.
Lemma model_changed_x (v s p f : bool) : model_changed (N.shiftl (pst v s p f) Spatial_Offset) = v || s || p.
Proof. destruct v, s, p, f; reflexivity. Qed.
Lemma model_changed_st (f : bool) : model_changed (sp_type f) = false.
Proof. destruct f; reflexivity. Qed.
Lemma model_changed_xt (f : bool) : model_changed (xp_type f) = false.
Proof. destruct f; reflexivity. Qed.
Lemma source_freed_lor a b : source_freed (N.lor a b) = source_freed a || source_freed b.
Proof. apply flag_lor. Qed.
Lemma source_freed_p (v s p f : bool) : source_freed (pst v s p f) = false.
Proof. destruct v, s, p, f; reflexivity. Qed.
Lemma source_freed_g (s f : bool) : source_freed (if s then if f then Source_Freed else Source_Fixed else 0) = s && f.
Proof. destruct s, f; reflexivity. Qed.
Lemma source_freed_s (v s p f : bool) : source_freed (N.shiftl (pst v s p f) Spec_Offset) = false.
Proof. destruct v, s, p, f; reflexivity. Qed.
Lemma source_freed_x (v s p f : bool) : source_freed (N.shiftl (pst v s p f) Spatial_Offset) = false.
Proof. destruct v, s, p, f; reflexivity. Qed.
Lemma source_freed_st (f : bool) : source_freed (sp_type f) = false.
Proof. destruct f; reflexivity. Qed.
Lemma source_freed_xt (f : bool) : source_freed (xp_type f) = false.
Proof. destruct f; reflexivity. Qed.
Lemma source_fixed_lor a b : source_fixed (N.lor a b) = source_fixed a || source_fixed b.
Proof. apply flag_lor. Qed.
Lemma source_fixed_p (v s p f : bool) : source_fixed (pst v s p f) = false.
Proof. destruct v, s, p, f; reflexivity. Qed.
Lemma source_fixed_g (s f : bool) : source_fixed (if s then if f then Source_Freed else Source_Fixed else 0) = s && negb f.
Proof. destruct s, f; reflexivity. Qed.
Lemma source_fixed_s (v s p f : bool) : source_fixed (N.shiftl (pst v s p f) Spec_Offset) = false.
Proof. destruct v, s, p, f; reflexivity. Qed.
Lemma source_fixed_x (v s p f : bool) : source_fixed (N.shiftl (pst v s p f) Spatial_Offset) = false.
Proof. destruct v, s, p, f; reflexivity. Qed.
Lemma source_fixed_st (f : bool) : source_fixed (sp_type f) = false.
Proof. destruct f; reflexivity. Qed.
Lemma source_fixed_xt (f : bool) : source_fixed (xp_type f) = false.
Proof. destruct f; reflexivity. Qed.
Lemma changed_p (v s p f : bool) : changed (pst v s p f) = v || s || p.
Proof. destruct v, s, p, f; reflexivity. Qed.
Lemma changed_g (s f : bool) : changed (if s then if f then Source_Freed else Source_Fixed else 0) = s.
Proof. destruct s, f; reflexivity. Qed.
Lemma changed_s (v s p f : bool) : changed (N.shiftl (pst v s p f) Spec_Offset) = v || s || p.
Proof. destruct v, s, p, f; reflexivity. Qed.
Lemma changed_x (v s p f : bool) : changed (N.shiftl (pst v s p f) Spatial_Offset) = v || s || p.
Proof. destruct v, s, p, f; reflexivity. Qed.
Lemma changed_st (f : bool) : changed (sp_type f) = true.
Proof. destruct f; reflexivity. Qed.
Lemma changed_xt (f : bool) : changed (xp_type f) = true.
Proof. destruct f; reflexivity. Qed.
#[export] Hint Rewrite norm_value_changed_lor norm_value_changed_p norm_value_changed_g norm_value_changed_s norm_value_changed_x norm_value_changed_st norm_value_changed_xt norm_status_changed_lor norm_status_changed_p norm_status_changed_g norm_status_changed_s norm_status_changed_x norm_status_changed_st norm_status_changed_xt norm_prior_changed_lor norm_prior_changed_p norm_prior_changed_g norm_prior_changed_s norm_prior_changed_x norm_prior_changed_st norm_prior_changed_xt norm_changed_lor norm_changed_p norm_changed_g norm_changed_s norm_changed_x norm_changed_st norm_changed_xt spec_changed_lor spec_changed_p spec_changed_g spec_changed_s spec_changed_x spec_changed_st spec_changed_xt spec_free_changed_lor spec_free_changed_p spec_free_changed_g spec_free_changed_s spec_free_changed_x spec_free_changed_st spec_free_changed_xt spec_fixed_changed_lor spec_fixed_changed_p spec_fixed_changed_g spec_fixed_changed_s spec_fixed_changed_x spec_fixed_changed_st spec_fixed_changed_xt spatial_changed_lor spatial_changed_p spatial_changed_g spatial_changed_s spatial_changed_x spatial_changed_st spatial_changed_xt spec_model_type_changed_lor spec_model_type_changed_p spec_model_type_changed_g spec_model_type_changed_s spec_model_type_changed_x spec_model_type_changed_st spec_model_type_changed_xt spatial_model_type_changed_lor spatial_model_type_changed_p spatial_model_type_changed_g spatial_model_type_changed_s spatial_model_type_changed_x spatial_model_type_changed_st spatial_model_type_changed_xt model_changed_lor model_changed_p model_changed_g model_changed_s model_changed_x model_changed_st model_changed_xt source_freed_lor source_freed_p source_freed_g source_freed_s source_freed_x source_freed_st source_freed_xt source_fixed_lor source_fixed_p source_fixed_g source_fixed_s source_fixed_x source_fixed_st source_fixed_xt changed_p changed_g changed_s changed_x changed_st changed_xt changed_lor : snap.

{
 "claims": [
  {
   "property": "C01",
   "status": "proved",
   "theorems": [
    "C01_sparse_reads_like_dense"
   ],
   "note": ""
  },
  {
   "property": "C02",
   "status": "proved",
   "theorems": [
    "C02_key_value_round_trip",
    "C02_map_round_trip",
    "C02_dense_round_trip",
    "C02_dense_export",
    "C02_range_map_export"
   ],
   "note": "Proved in full by the theorems listed. The parts of this subject that the code violates or that are proved only in part are property C102."
  },
  {
   "property": "C03",
   "status": "proved",
   "theorems": [
    "C03_add_to_dense",
    "C03_subtract_undoes_add"
   ],
   "note": ""
  },
  {
   "property": "C04",
   "status": "proved",
   "theorems": [
    "C04_kahan_totals"
   ],
   "note": "Proved in full by the theorems listed. The parts of this subject that the code violates or that are proved only in part are property C104."
  },
  {
   "property": "C05",
   "status": "proved",
   "theorems": [
    "C05_index_bijection",
    "C05_coordinate_index",
    "C05_fills_accumulate",
    "C05_weights_in_selects",
    "C05_total_conserved",
    "C05_wrong_arity_throws"
   ],
   "note": "The external evtbin::Binner is an arbitrary index function; contents and weights are arbitrary types with an arbitrary += (so rounding is covered)."
  },
  {
   "property": "C06",
   "status": "proved",
   "theorems": [
    "C06_set_get_slice",
    "C06_get_slice_is_cells"
   ],
   "note": "Proved in full by the theorems listed. The parts of this subject that the code violates or that are proved only in part are property C106."
  },
  {
   "property": "C07",
   "status": "proved",
   "theorems": [
    "C07_sum_of_trapezoids",
    "C07_integral_of_interpolant",
    "C07_log_integral_of_interpolant",
    "C07_interpolants_pass_through_nodes",
    "C07_exact_affine",
    "C07_linear",
    "C07_additive",
    "C07_nonneg"
   ],
   "note": "Over the reals. Integrals are Coquelicot's is_RInt."
  },
  {
   "property": "C08",
   "status": "proved",
   "theorems": [
    "C08_elementwise",
    "C08_size_mismatch_throws",
    "C08_scalar",
    "C08_set_value",
    "C08_inner_products",
    "C08_inner_product_symmetric",
    "C08_inner_product_bilinear",
    "C08_subtract_undoes_add",
    "C08_reshape"
   ],
   "note": "Arbitrary element type and operations (covers rounding); ring laws only for bilinearity and for subtract-undoes-add. The output may alias an input."
  },
  {
   "property": "C09",
   "status": "proved",
   "theorems": [
    "C09_expand_energies",
    "C09_expand_increasing",
    "C09_short_grid_unchanged",
    "C09_log_ratios"
   ],
   "note": "Over the reals, for positive energies."
  },
  {
   "property": "C10",
   "status": "partial",
   "theorems": [
    "C10_sparse_is_dense",
    "C10_sparse_is_dense_npix",
    "C10_negative_bin_masked_refuted",
    "C10_weights_of_other_model_refuted"
   ],
   "note": "Proved with equality of outcomes (value or exception) for non-negative models, layers of any non-zero size and any range of layers, weighted and unweighted. Refuted: a negative model bin without data is masked by the lumping; weights lumped with one model are wrong for another (the scanner lumps them once, with the initial model). An energy layer with zero pixels is excluded by hypothesis (the by-layer variant then never emits another placeholder)."
  },
  {
   "property": "C11",
   "status": "proved",
   "theorems": [
    "C11_throws_or_value",
    "C11_weighted_throws_or_value",
    "C11_permutation",
    "C11_concatenation"
   ],
   "note": "Over the reals."
  },
  {
   "property": "C12",
   "status": "proved",
   "theorems": [
    "C12_refactor_preserves_total",
    "C12_count_mismatch_throws"
   ],
   "note": "Over the reals; state after an exception not covered."
  },
  {
   "property": "C13",
   "status": "partial",
   "theorems": [
    "C13_model_is_sum",
    "C13_gradient_and_hessian",
    "C13_small_weight_refuted"
   ],
   "note": "Proved for bins whose weighted counts are clear of the 1e-9 threshold; C13_small_weight_refuted shows the gradient is not the gradient of the likelihood when a positive weight pushes counts below it. Exact real arithmetic."
  },
  {
   "property": "C14",
   "status": "partial",
   "theorems": [
    "C14_damped_fit_partial",
    "C14_undamped_fit_partial",
    "C14_undamped_worse_refuted",
    "C14_negative_lambda_refuted",
    "C14_no_counts_refuted"
   ],
   "note": "Proved for damped fits with counts (every return code) and for undamped fits up to a loss of 1; refuted for undamped fits (worse result reported as success), negative damping and empty data (reported log-likelihood belongs to other normalisations)."
  },
  {
   "property": "C15",
   "status": "proved",
   "theorems": [
    "C15_refines_map",
    "C15_throwing_call_changes_nothing",
    "C15_ownership",
    "C15_reachable_worlds_are_well_formed"
   ],
   "note": "Proved for every sequence of build/add/delete/deleteAll (refinement to an abstract map) and ownership for all sequences including setters. Names are integers (only compared)."
  },
  {
   "property": "C16",
   "status": "proved",
   "theorems": [
    "C16_set_values_round_trip",
    "C16_set_params_round_trip",
    "C16_bad_length_changes_nothing"
   ],
   "note": "Proved in full by the theorems listed. The parts of this subject that the code violates or that are proved only in part are property C116."
  },
  {
   "property": "C17",
   "status": "partial",
   "theorems": [
    "C17_give_conserves_partial",
    "C17_give_succeeds",
    "C17_steal_conserves_partial",
    "C17_merge_conserves_partial",
    "C17_split_conserves_partial",
    "C17_give_loses_source_refuted",
    "C17_split_loses_source_refuted",
    "C17_merge_loses_sources_refuted"
   ],
   "note": "Conservation proved for every call that succeeds or whose source is unknown; refuted for calls refused by the receiving model: the source has already left its model and is unreachable."
  },
  {
   "property": "C18",
   "status": "partial",
   "theorems": [
    "C18_summed_set_free_round_trip",
    "C18_summed_tie_gives_one_value",
    "C18_summed_throwing_tie_loses_parameter_refuted",
    "C18_reachable_composites_are_well_formed",
    "C18_set_free_round_trip",
    "C18_tie_gives_one_value",
    "C18_set_tied_value",
    "C18_mixed_tie_misassigns_refuted",
    "C18_fixing_a_group_overruns_refuted",
    "C18_parameter_in_two_groups_refuted",
    "C18_throwing_tie_loses_parameter_refuted",
    "C18_tie_different_names_refuted",
    "C18_fixed_group_diverges_refuted"
   ],
   "note": "Round trips and one-value-per-group proved for every composite reachable by add/tie/set; refuted where the code fails: ties mixing free and fixed members, groups fixed after tying, a parameter in two groups, a tie that throws half-way, members with different names."
  },
  {
   "property": "C19",
   "status": "proved",
   "theorems": [
    "C19_params_in_entry_order",
    "C19_joint_gradient"
   ],
   "note": "Proved in full by the theorems listed. The parts of this subject that the code violates or that are proved only in part are property C119."
  },
  {
   "property": "C20",
   "status": "partial",
   "theorems": [
    "C20_summed_find_index_partial",
    "C20_summed_fixed_group_refuted",
    "C20_find_index_partial",
    "C20_fixed_group_shifts_refuted"
   ],
   "note": "findIndex proved when every group is free; a fixed group shifts the index (refuted)."
  },
  {
   "property": "C21",
   "status": "partial",
   "theorems": [
    "C21_filled_pixels_partial",
    "C21_cannot_remove_weights_refuted"
   ],
   "note": "Proved for every call history without setWeightsMap(0) after deleteOriginalWeightMap, which the code ignores (refuted)."
  },
  {
   "property": "C22",
   "status": "partial",
   "theorems": [
    "C22_counts_spectrum_partial",
    "C22_wrong_size_is_refused"
   ],
   "note": "As C21 for the spectra; wrong-size counts proved refused without effect."
  },
  {
   "property": "C23",
   "status": "partial",
   "theorems": [
    "C23_value_partial",
    "C23_gradient_partial",
    "C23_freeing_changes_nothing_partial",
    "C23_delete_after_change_refuted",
    "C23_delete_after_freeing_refuted",
    "C23_name_reused_refuted",
    "C23_set_image_refuted",
    "C23_gradient_refuted",
    "C23_corrections_refuted"
   ],
   "note": "Every history of addSource, deleteSource, setParam, freeing/fixing, setFreeParamValues, syncSrcParams, set_klims, loadSourceMap, eraseSourceMap, value and getFreeDerivs is covered, under: one image per name, no correction-factor dispersion, and no deletion of a source between a change to it and the next evaluation. The refuted theorems show each condition is needed: deletion after a change leaves a residue for ever, a reused name keeps the old map, an image set by hand is ignored for a fixed source, corrections are stale, and the gradient uses a stale model after setParam/deleteSource/freeing without syncSrcParams."
  },
  {
   "property": "C24",
   "status": "proved",
   "theorems": [
    "C24_counts_of_a_source",
    "C24_add_then_subtract"
   ],
   "note": "All of it, for exact reals (no float rounding)."
  },
  {
   "property": "C25",
   "status": "proved",
   "theorems": [
    "C25_model_sum"
   ],
   "note": ""
  },
  {
   "property": "C26",
   "status": "partial",
   "theorems": [
    "C26_value_partial",
    "C26_runs_partial",
    "C26_refreshed_partial",
    "C26_careful_partial",
    "C26_fixed_change_refuted",
    "C26_unset_bounds_refuted",
    "C26_added_in_bounds_refuted",
    "C26_moved_refuted",
    "C26_after_throw_refuted"
   ],
   "note": "Value is the unbinned likelihood after any history covered by the careful-use conditions; refuted otherwise (changes to fixed sources, bounds unset, sources added within bounds, moved sources, evaluations that throw)."
  },
  {
   "property": "C27",
   "status": "proved",
   "theorems": [
    "C27_nobs",
    "C27_one_bin"
   ],
   "note": "Proved for every event list, with std::upper_bound modelled as the bisection of libstdc++."
  },
  {
   "property": "C28",
   "status": "proved",
   "theorems": [
    "C28_round_trip",
    "C28_keys_distinct",
    "C28_idempotent",
    "C28_stable",
    "C28_unknown_throws"
   ],
   "note": "Proved in full by the theorems listed. The parts of this subject that the code violates or that are proved only in part are property C128."
  },
  {
   "property": "C29",
   "status": "proved",
   "theorems": [
    "C29_reads",
    "C29_writes"
   ],
   "note": ""
  },
  {
   "property": "C30",
   "status": "proved",
   "theorems": [
    "C30_convolution",
    "C30_wrong_size",
    "C30_conserves_counts",
    "C30_power_law_continuation",
    "C30_transpose",
    "C30_extrapolation"
   ],
   "note": "Proved in full by the theorems listed. The parts of this subject that the code violates or that are proved only in part are property C130."
  },
  {
   "property": "C31",
   "status": "partial",
   "theorems": [
    "C31_corrections_partial",
    "C31_measured_counts_partial",
    "C31_rescaled_map",
    "C31_weighted_true_counts_partial",
    "C31_leading_empty_bin_refuted",
    "C31_first_message_refuted",
    "C31_weighted_true_counts_refuted"
   ],
   "note": "Corrections, measured counts and rescaled map proved when the first bin has true counts (old method). Refuted without: a leading empty bin reads index -1; the first-negative message reads past the true counts; weighted true counts mix bins with the new method."
  },
  {
   "property": "C32",
   "status": "partial",
   "theorems": [
    "C32_history",
    "C32_doubles_partial",
    "C32_doubles_refuted"
   ],
   "note": "Model of the static cache shared by all instances. C32_history: for every history over any number of instances, each call returns the closed form of the current parameters, over any carrier where x + 1 differs from x. C32_doubles_partial: the same for IEEE doubles (Flocq) below 2^53. C32_doubles_refuted: at energies from 2^53 on, where x + 1.0 == x, a changed index can go unnoticed and a stale value is returned."
  },
  {
   "property": "C33",
   "status": "proved",
   "theorems": [
    "C33_PowerLaw2",
    "C33_LogParabola",
    "C33_ScaleFactor",
    "C33_FileFunction"
   ],
   "note": "Proved in full by the theorems listed. The parts of this subject that the code violates or that are proved only in part are property C133."
  },
  {
   "property": "C34",
   "status": "partial",
   "theorems": [
    "C34_PLSuperExpCutoff_partial",
    "C34_PLSuperExpCutoff2_partial",
    "C34_PLSuperExpCutoff3_partial",
    "C34_PLSuperExpCutoff4_partial",
    "C34_ExpCutoff_partial",
    "C34_BPLExpCutoff_partial",
    "C34_zero_prefactor_refuted",
    "C34_bounded_exponent_refuted",
    "C34_BPLExpCutoff_refuted"
   ],
   "note": "Partial: zero prefactor gives 0/0 (refuted), exponent cut at log(1E100) has a wrong derivative (refuted), BPLExpCutoff with zero prefactor and scaled Eabs/P1 is wrong (refuted); everything else proved for all scales."
  },
  {
   "property": "C35",
   "status": "proved",
   "theorems": [
    "C35_BrokenPowerLaw3"
   ],
   "note": "Proved in full by the theorems listed. The parts of this subject that the code violates or that are proved only in part are property C135."
  },
  {
   "property": "C36",
   "status": "proved",
   "theorems": [
    "C36_PowerLaw2",
    "C36_BrokenPowerLaw2"
   ],
   "note": "Proved in full by the theorems listed. The parts of this subject that the code violates or that are proved only in part are property C136."
  },
  {
   "property": "C37",
   "status": "proved",
   "theorems": [
    "C37_ExpCutoff",
    "C37_BandFunction",
    "C37_BrokenPowerLaw2",
    "C37_BrokenPowerLaw3",
    "C37_MultipleBrokenPowerLaw",
    "C37_PiecewisePowerLaw",
    "C37_jump_excludes"
   ],
   "note": "Proved in full by the theorems listed. The parts of this subject that the code violates or that are proved only in part are property C137."
  },
  {
   "property": "C38",
   "status": "proved",
   "theorems": [
    "C38_GaussianError_value",
    "C38_LogGaussian_value",
    "C38_derivative"
   ],
   "note": "Proved in full by the theorems listed. The parts of this subject that the code violates or that are proved only in part are property C138."
  },
  {
   "property": "C39",
   "status": "proved",
   "theorems": [
    "C39_npred_value",
    "C39_cell",
    "C39_flux",
    "C39_flux_value",
    "C39_pixel_value"
   ],
   "note": "Proved in full by the theorems listed. The parts of this subject that the code violates or that are proved only in part are property C139."
  },
  {
   "property": "C40",
   "status": "partial",
   "theorems": [
    "C40_history_partial",
    "C40_partition",
    "C40_derivative",
    "C40_fixed",
    "C40_set_param_partial",
    "C40_set_param_refuted",
    "C40_assign_refuted",
    "C40_assign_other_refuted"
   ],
   "note": "Refinement of wrapped spectra, with parameters shared by reference, to independent values over all histories of construction, copying, setting and destruction (C40_history_partial), band edges (C40_partition), derivatives (C40_derivative, C40_fixed), setParam (C40_set_param_partial). Partial because assignment is covered only between objects with the same added parameters: it does not copy Emin and Emax (C40_assign_refuted) and leaves an unusable object if the parameters differ (C40_assign_other_refuted); and setParam refuses a valid parameter whose value is outside the old bounds (C40_set_param_refuted). optimizers::Parameter is modelled from its documented behaviour."
  },
  {
   "property": "C41",
   "status": "proved",
   "theorems": [
    "C41_same_map",
    "C41_errors"
   ],
   "note": "Proved in full by the theorems listed. The parts of this subject that the code violates or that are proved only in part are property C141."
  },
  {
   "property": "C42",
   "status": "proved",
   "theorems": [
    "C42_same_map",
    "C42_has_map"
   ],
   "note": "Proved in full by the theorems listed. The parts of this subject that the code violates or that are proved only in part are property C142."
  },
  {
   "property": "C43",
   "status": "partial",
   "theorems": [
    "C43_resize_reads_partial",
    "C43_resize_sets_size_refuted",
    "C43_push_after_shrink_refuted"
   ],
   "note": "Reads after resize are proved in both directions; the size after a shrinking resize is refuted (m_size is not updated)."
  },
  {
   "property": "C44",
   "status": "partial",
   "theorems": [
    "C44_reduced_selects_layers_partial",
    "C44_unreduced_refuted"
   ],
   "note": "Proved for the compressed representation; refuted for the uncompressed one, where the stop indices have a leading zero and every range loses its last layer."
  },
  {
   "property": "C45",
   "status": "proved",
   "theorems": [
    "C45_norms_stay_nonnegative"
   ],
   "note": "Holds for arbitrary solver output."
  },
  {
   "property": "C46",
   "status": "proved",
   "theorems": [
    "C46_plane_totals",
    "C46_masked_map",
    "C46_add_then_subtract"
   ],
   "note": "Proved in full by the theorems listed. The parts of this subject that the code violates or that are proved only in part are property C146."
  },
  {
   "property": "C47",
   "status": "partial",
   "theorems": [
    "C47_rescaling_refuted",
    "C47_binned_gradient_partial"
   ],
   "note": "Holds on the domain stated; C47_rescaling_refuted shows that with the older correction-factor dispersion the gradient leaves out the dependence of the correction factors on the spectrum."
  },
  {
   "property": "C48",
   "status": "partial",
   "theorems": [
    "C48_free_equals_fixed_partial",
    "C48_reference_bin_refuted"
   ],
   "note": "Equal for planes that are not described by a reference bin, for full and sparse maps and every dispersion setting; refuted with a reference bin."
  },
  {
   "property": "C49",
   "status": "partial",
   "theorems": [
    "C49_switch_without_fixed_refuted",
    "C49_switch_refuted",
    "C49_same_setting_partial"
   ],
   "note": "Refuted: with no fixed source the next value() reads an empty vector; otherwise existing maps keep the old setting while the totals of free sources use the new one, and switching back is ignored. Only setting the value given at construction is shown harmless."
  },
  {
   "property": "C50",
   "status": "partial",
   "theorems": [
    "C50_restore_partial",
    "C50_fixed_change_refuted",
    "C50_other_source_refuted",
    "C50_bounds_refuted"
   ],
   "note": "Restoring after a change of parameter values gives the saved values and likelihood; refuted when fixed values, other sources or bounds changed."
  },
  {
   "property": "C51",
   "status": "partial",
   "theorems": [
    "C51_gradient_partial",
    "C51_unsynchronised_refuted"
   ],
   "note": "The gradient is the derivative of value when parameters are synchronised; refuted otherwise."
  },
  {
   "property": "C52",
   "status": "partial",
   "theorems": [
    "C52_event_sums_partial",
    "C52_fixed_change_refuted"
   ],
   "note": "Holds after value() when fixed sources are not changed; refuted after changing a fixed source."
  },
  {
   "property": "C53",
   "status": "proved",
   "theorems": [
    "C53_shares"
   ],
   "note": "For events whose model sum is the sum over the sources (what C52 gives) and is not 0."
  },
  {
   "property": "C54",
   "status": "partial",
   "theorems": [
    "C54_written_partial",
    "C54_order_refuted",
    "C54_unused_first_refuted",
    "C54_two_unused_refuted",
    "C54_old_form_refuted",
    "C54_case_refuted",
    "C54_clobber_refuted"
   ],
   "note": "Proved when all files list the same names in use, in the same order and before unused ones, sources differ by more than case, and none is present in the old '::' form. Each condition is shown needed by a refuted theorem; with clobber=yes existing columns are not recomputed."
  },
  {
   "property": "C55",
   "status": "proved",
   "theorems": [
    "C55_LogParabola",
    "C55_ExpCutoffSEDPeak",
    "C55_PLSuperExpCutoff",
    "C55_PLSuperExpCutoff3",
    "C55_PLSuperExpCutoff4",
    "C55_SmoothBrokenPowerLaw",
    "C55_MultipleBrokenPowerLaw",
    "C55_PiecewisePowerLaw"
   ],
   "note": "Proved in full by the theorems listed. The parts of this subject that the code violates or that are proved only in part are property C155."
  },
  {
   "property": "C56",
   "status": "proved",
   "theorems": [
    "C56_rebuilt"
   ],
   "note": "Proved in full by the theorems listed. The parts of this subject that the code violates or that are proved only in part are property C156."
  },
  {
   "property": "C57",
   "status": "proved",
   "theorems": [
    "C57_value",
    "C57_derivative"
   ],
   "note": "Proved in full by the theorems listed. The parts of this subject that the code violates or that are proved only in part are property C157."
  },
  {
   "property": "C58",
   "status": "proved",
   "theorems": [
    "C58_whole"
   ],
   "note": "Proved in full by the theorems listed. The parts of this subject that the code violates or that are proved only in part are property C158."
  },
  {
   "property": "C59",
   "status": "partial",
   "theorems": [
    "C59_fraction",
    "C59_no_gtis",
    "C59_no_gtis_refuted",
    "C59_degenerate",
    "C59_unsorted_refuted",
    "C59_overlap_refuted",
    "C59_load",
    "C59_load_sum",
    "C59_load_empty_refuted",
    "C59_bins"
   ],
   "note": "acceptInterval, load and the inclination bins in exact arithmetic; GTIs must be ordered and disjoint (refuted otherwise), an empty GTI list means no restriction, an empty spacecraft table is undefined. What fill() does with the livetime is not modelled."
  },
  {
   "property": "C60",
   "status": "proved",
   "theorems": [
    "C60_read",
    "C60_livetimefrac",
    "C60_axes"
   ],
   "note": "Proved in full by the theorems listed. The parts of this subject that the code violates or that are proved only in part are property C160."
  },
  {
   "property": "C61",
   "status": "proved",
   "theorems": [
    "C61_energies",
    "C61_energies_refused",
    "C61_read",
    "C61_tmin"
   ],
   "note": "Proved in full by the theorems listed. The parts of this subject that the code violates or that are proved only in part are property C161."
  },
  {
   "property": "C62",
   "status": "proved",
   "theorems": [
    "C62_count",
    "C62_value",
    "C62_value_refreshes",
    "C62_add"
   ],
   "note": "Proved in full by the theorems listed. The parts of this subject that the code violates or that are proved only in part are property C162."
  },
  {
   "property": "C63",
   "status": "proved",
   "theorems": [
    "C63_changed",
    "C63_report",
    "C63_same"
   ],
   "note": "Proved in full by the theorems listed. The parts of this subject that the code violates or that are proved only in part are property C163."
  },
  {
   "property": "C64",
   "status": "proved",
   "theorems": [
    "C64_grid",
    "C64_values",
    "C64_sum"
   ],
   "note": "Proved in full by the theorems listed. The parts of this subject that the code violates or that are proved only in part are property C164."
  },
  {
   "property": "C65",
   "status": "proved",
   "theorems": [
    "C65_build",
    "C65_test"
   ],
   "note": "Proved in full by the theorems listed. The parts of this subject that the code violates or that are proved only in part are property C165."
  },
  {
   "property": "C66",
   "status": "proved",
   "theorems": [
    "C66_build",
    "C66_written",
    "C66_monotone",
    "C66_containment",
    "C66_derivative",
    "C66_value"
   ],
   "note": "Proved in full by the theorems listed. The parts of this subject that the code violates or that are proved only in part are property C166."
  },
  {
   "property": "C67",
   "status": "proved",
   "theorems": [
    "C67_map",
    "C67_allsky",
    "C67_counts",
    "C67_find",
    "C67_directions",
    "C67_bounds",
    "C67_inclination"
   ],
   "note": "Proved in full by the theorems listed. The parts of this subject that the code violates or that are proved only in part are property C167."
  },
  {
   "property": "C68",
   "status": "proved",
   "theorems": [
    "C68_outside",
    "C68_inside",
    "C68_nearest",
    "C68_bilinear",
    "C68_border",
    "C68_centre",
    "C68_bounds",
    "C68_wrap",
    "C68_node",
    "C68_power_law",
    "C68_zero",
    "C68_nonnegative",
    "C68_enforced",
    "C68_integral",
    "C68_integral_node",
    "C68_weighed"
   ],
   "note": "Proved in full by the theorems listed. The parts of this subject that the code violates or that are proved only in part are property C168."
  },
  {
   "property": "C69",
   "status": "proved",
   "theorems": [
    "C69_fold",
    "C69_roundtrip",
    "C69_integrals",
    "C69_integral_bounds",
    "C69_rebin_sum",
    "C69_rebin_mean",
    "C69_factor_one",
    "C69_geometry",
    "C69_negative",
    "C69_extremes",
    "C69_corners",
    "C69_solid_angle",
    "C69_solid_angle_positive"
   ],
   "note": "Proved in full by the theorems listed. The parts of this subject that the code violates or that are proved only in part are property C169."
  },
  {
   "property": "C70",
   "status": "proved",
   "theorems": [
    "C70_line",
    "C70_defined",
    "C70_node",
    "C70_profile_bounds",
    "C70_jump",
    "C70_template",
    "C70_angular",
    "C70_centre_set",
    "C70_centre_parameters",
    "C70_centre_kept",
    "C70_copy",
    "C70_assign",
    "C70_disk",
    "C70_gauss",
    "C70_disk_normalised",
    "C70_gauss_normalised",
    "C70_resynchronised",
    "C70_synchronised",
    "C70_moved",
    "C70_disk_arc",
    "C70_disk_range",
    "C70_gauss_ring",
    "C70_gauss_range",
    "C70_moveable",
    "C70_moved_reference",
    "C70_radius",
    "C70_radius_values",
    "C70_direction",
    "C70_direction_unknown"
   ],
   "note": "Proved in full by the theorems listed. The parts of this subject that the code violates or that are proved only in part are property C170."
  },
  {
   "property": "C71",
   "status": "proved",
   "theorems": [
    "C71_rotation",
    "C71_direction",
    "C71_covers_once",
    "C71_limits_inside",
    "C71_integrand",
    "C71_split",
    "C71_range",
    "C71_map_sum"
   ],
   "note": "Proved in full by the theorems listed. The position angles of special directions and the limits for events outside a map are property C171."
  },
  {
   "property": "C72",
   "status": "proved",
   "theorems": [
    "C72_bilinear",
    "C72_bilinear_grid",
    "C72_offsets",
    "C72_sub_pixels",
    "C72_undistorted",
    "C72_adaptive",
    "C72_annular",
    "C72_centre",
    "C72_radius",
    "C72_map",
    "C72_corrected",
    "C72_point",
    "C72_hpx_psf",
    "C72_hpx_map"
   ],
   "note": "Theorems about makePointSourceMap_wcs, makePointSourceMap_healpix, the three PSF estimators, the offset map and its interpolation, and fillMapWithPSF_refDir. SkyDir::difference, projections, HEALPix geometry and MeanPsf are arbitrary functions."
  },
  {
   "property": "C73",
   "status": "proved",
   "theorems": [
    "C73_text",
    "C73_roundtrip",
    "C73_stable",
    "C73_reread",
    "C73_keeps",
    "C73_names",
    "C73_duplicate",
    "C73_no_spectrum",
    "C73_no_document",
    "C73_flux",
    "C73_flux_fails",
    "C73_flux_file",
    "C73_registry",
    "C73_flags_read"
   ],
   "note": "Theorems about the bytes of the file. Printing and reading of numbers, the function factory and readability of files are arbitrary functions (reading what was printed gives the rounded number; rounding keeps the order). extractDomData, setParams and setBounds of package optimizers are modelled as described in the comments."
  },
  {
   "property": "C74",
   "status": "proved",
   "theorems": [
    "C74_add",
    "C74_subtract",
    "C74_size",
    "C74_storage",
    "C74_undo",
    "C74_summed_map",
    "C74_model_map",
    "C74_single_map",
    "C74_counts_spectrum",
    "C74_spectra_add_up",
    "C74_saved",
    "C74_others_kept",
    "C74_found_again",
    "C74_existing_file"
   ],
   "note": "SourceMap vectors over arbitrary arithmetic; sums, undoing and shares over the reals. FITS files are an extension name -> contents map."
  },
  {
   "property": "C75",
   "status": "proved",
   "theorems": [
    "C75_weights",
    "C75_round",
    "C75_fit_never_lowers",
    "C75_gradient",
    "C75_parameters",
    "C75_only_free_values",
    "C75_stops",
    "C75_nothing_free",
    "C75_tolerance"
   ],
   "note": "The optimizer is arbitrary: it can only leave values in the free parameters. Flux densities and predicted counts are arbitrary functions of the values. Real arithmetic."
  },
  {
   "property": "C76",
   "status": "proved",
   "theorems": [
    "C76_exposure",
    "C76_at_plane",
    "C76_linear",
    "C76_nonneg",
    "C76_map_cube",
    "C76_spatial_map",
    "C76_power_law_ends",
    "C76_source",
    "C76_no_map",
    "C76_read",
    "C76_short_image",
    "C76_computed",
    "C76_parts",
    "C76_write_read",
    "C76_centre"
   ],
   "note": "Proved for all maps and energies, over the reals; the projection, the exposure of one direction and the value of the source's map are arbitrary functions."
  },
  {
   "property": "C77",
   "status": "proved",
   "theorems": [
    "C77_bins",
    "C77_alpha",
    "C77_alpha_zero",
    "C77_alpha_order",
    "C77_weights",
    "C77_equal_components",
    "C77_alpha_none",
    "C77_background",
    "C77_background_own_bin",
    "C77_background_healpix",
    "C77_pixels",
    "C77_border",
    "C77_events",
    "C77_events_split",
    "C77_within",
    "C77_keywords",
    "C77_not_3d",
    "C77_centred",
    "C77_pixel_numbers"
   ],
   "note": "Proved for all maps, over the reals; the projection, the convolution and the solid angle of four directions are arbitrary functions."
  },
  {
   "property": "C78",
   "status": "proved",
   "theorems": [
    "C78_density",
    "C78_density_one_point",
    "C78_member_derivative",
    "C78_merge",
    "C78_round_trip"
   ],
   "note": "Proved for all models; densities over the reals. Maps are what createSourceMap computes, an arbitrary function; the counts kept for fixed sources are not part of this model."
  },
  {
   "property": "C79",
   "status": "proved",
   "theorems": [
    "C79_bounds",
    "C79_binned_bounds",
    "C79_source_counts",
    "C79_counts_add_up",
    "C79_source_fluxes",
    "C79_total",
    "C79_observed",
    "C79_table",
    "C79_data_spectrum",
    "C79_attributed"
   ],
   "note": "Proved for all inputs over the reals; what a source predicts between two energies is an arbitrary function, additive where the claim is about sums."
  },
  {
   "property": "C80",
   "status": "proved",
   "theorems": [
    "C80_scan",
    "C80_grid",
    "C80_succeeds",
    "C80_sed",
    "C80_freeze",
    "C80_free"
   ],
   "note": "Proved for all inputs over the reals; the likelihood is an arbitrary function and the optimizer one that finds its maximum over the allowed values."
  },
  {
   "property": "C81",
   "status": "proved",
   "theorems": [
    "C81_nearest",
    "C81_interpolated",
    "C81_power_law",
    "C81_node",
    "C81_nonnegative",
    "C81_enforced",
    "C81_source",
    "C81_source_negative",
    "C81_counts",
    "C81_file",
    "C81_weighed"
   ],
   "note": "Proved over the reals, with the HEALPix library (pixel of a direction, neighbours and weights) as arbitrary functions. The convolution itself is not modelled here."
  },
  {
   "property": "C82",
   "status": "proved",
   "theorems": [
    "C82_init",
    "C82_external",
    "C82_subset_matrix",
    "C82_current",
    "C82_gradient",
    "C82_errors",
    "C82_scan"
   ],
   "note": "Proved over the reals. Inverting a matrix and the Newton fit are arbitrary functions (the inverse is assumed to be one)."
  },
  {
   "property": "C83",
   "status": "proved",
   "theorems": [
    "C83_dense_round_trip",
    "C83_dense_replace",
    "C83_wcs",
    "C83_wcs_replace",
    "C83_sparse_round_trip",
    "C83_sparse_outside",
    "C83_sparse_unreadable",
    "C83_ebounds",
    "C83_drm",
    "C83_drm_table",
    "C83_parameters",
    "C83_parameters_count"
   ],
   "note": "FITS tables are modelled as named columns of rows; writing beyond the last row adds rows. Numbers are not rounded on writing."
  },
  {
   "property": "C84",
   "status": "proved",
   "theorems": [
    "C84_time_cuts",
    "C84_time_differences",
    "C84_files",
    "C84_expmap",
    "C84_expmap_other",
    "C84_event_types",
    "C84_mask",
    "C84_response_types",
    "C84_response_file",
    "C84_border"
   ],
   "note": "When two cuts are equal is decided by the external library and left arbitrary (an equivalence where files are compared in chains)."
  },
  {
   "property": "C85",
   "status": "proved",
   "theorems": [
    "C85_ltsum_accepts",
    "C85_ltsum_compatible",
    "C85_ltsum_value",
    "C85_ltsum_order",
    "C85_ltsum_incremental",
    "C85_ltsum_other_bins",
    "C85_prob_value",
    "C85_prob_unknown_zero",
    "C85_prob_defined",
    "C85_prob_sum_one",
    "C85_prob_range",
    "C85_event_type",
    "C85_irfs_loaded",
    "C85_event_irfs",
    "C85_event_mask",
    "C85_selected_irfs"
   ],
   "note": "Merged good time intervals, dates and the densities themselves are not modelled here."
  },
  {
   "property": "C102",
   "status": "partial",
   "theorems": [
    "C02_dense_export_nonempty_refuted",
    "C02_range_export_partial",
    "C02_range_export_overruns_refuted",
    "C02_range_key_value_refuted"
   ],
   "note": "Key/value, map and dense round trips are proved. The ranged exports and a non-empty destination are refuted: fill_vect(vect,first,last) writes past the end when an entry is stored at index last, ranged fill_key_and_value indexes with idx-first, fill_vect keeps old destination content."
  },
  {
   "property": "C104",
   "status": "partial",
   "theorems": [
    "C04_accumulator_totals_partial",
    "C04_accumulator_zero_first_refuted"
   ],
   "note": "Kahan totals are proved for every arithmetic in which subtraction undoes addition; the logarithmically binned Accumulator is proved over the reals for histories that do not start with a zero (such histories read uninitialised members: refuted)."
  },
  {
   "property": "C106",
   "status": "partial",
   "theorems": [
    "C06_sum_range_partial",
    "C06_sum_range_first_bin_refuted",
    "C06_sum_range_axis_refuted",
    "C06_sum_range_1d_refuted"
   ],
   "note": "Slices are proved for every shape. sumRange is proved over the last axis from bin 0 and refuted for any other first bin, for other axes, and for one-dimensional histograms."
  },
  {
   "property": "C116",
   "status": "partial",
   "theorems": [
    "C16_vector_is_concatenation_partial",
    "C16_stale_after_out_of_bounds_refuted",
    "C16_overrun_after_refused_set_refuted"
   ],
   "note": "Proved when no setter was refused half-way; the full statement is refuted: after an out-of-bounds value (assumed behaviour of the external Parameter::setValue) or an unknown parameter name the vector is stale, and a later setFreeParamValues can read past the end."
  },
  {
   "property": "C119",
   "status": "partial",
   "theorems": [
    "C19_summed_gradient_partial",
    "C19_summed_group_derivative_refuted",
    "C19_summed_stale_output_refuted"
   ],
   "note": "Joint gradient proved entry by entry for CompositeLikelihood2; for SummedLikelihood only without tied groups (group derivatives and pre-filled outputs refuted)."
  },
  {
   "property": "C128",
   "status": "partial",
   "theorems": [
    "C28_other_keys_refuted"
   ],
   "note": "Round trip, distinctness, idempotence, stability and throwing proved for fewer than 2^31 columns (facilities::Util::atoi is taken to be C atoi). Refuted: strings such as the root alone or a key with trailing characters are accepted as keys."
  },
  {
   "property": "C130",
   "status": "partial",
   "theorems": [
    "C30_nonnegative_partial",
    "C30_linear_partial",
    "C30_negative_refuted",
    "C30_linear_refuted",
    "C30_single_bin_refuted"
   ],
   "note": "Folding, conservation, size check, transpose and exact continuation of power laws proved for all matrices. Linearity and non-negativity hold only without extra bins (or for non-negative continued counts): C30_linear_refuted and C30_negative_refuted give counterexamples with extra bins; one measured bin with extra bins reads out of range (C30_single_bin_refuted)."
  },
  {
   "property": "C133",
   "status": "partial",
   "theorems": [
    "C33_LogNormal_partial",
    "C33_ExpCutoffSEDPeak_partial",
    "C33_EblAtten_partial",
    "C33_PiecewisePowerLaw_partial",
    "C33_LogNormal_refuted",
    "C33_ExpCutoffSEDPeak_refuted",
    "C33_EblAtten_refuted",
    "C33_PiecewisePowerLaw_refuted"
   ],
   "note": "Full for PowerLaw2 (including Index = -1), LogParabola, ScaleFactor, FileFunction. Partial: LogNormal and ExpCutoffSEDPeak need a non-zero prefactor (the code divides by it; refuted), EblAtten needs a unit scale for tau_norm (refuted), PiecewisePowerLaw needs unit scales for IndexL/IndexH (refuted). Reals, no rounding; external interpolation and optical depth are arbitrary functions."
  },
  {
   "property": "C135",
   "status": "partial",
   "theorems": [
    "C35_BrokenPowerLaw2_partial",
    "C35_SmoothBrokenPowerLaw_partial",
    "C35_SmoothDoubleBrokenPowerLaw_partial",
    "C35_BandFunction_partial",
    "C35_MultipleBrokenPowerLaw_partial",
    "C35_BrokenPowerLaw2_refuted",
    "C35_SmoothDoubleBrokenPowerLaw_refuted",
    "C35_BandFunction_refuted",
    "C35_zero_prefactor_refuted",
    "C35_MultipleBrokenPowerLaw_refuted"
   ],
   "note": "Partial: BPL2 Index1/Index2 zero on the un-normalised side (refuted), SmoothDouble Index2 lacks the scale (refuted), Band Alpha wrong for alpha <= beta (refuted), MultipleBrokenPowerLaw lacks some scales (refuted), zero prefactor (refuted)."
  },
  {
   "property": "C136",
   "status": "partial",
   "theorems": [
    "C36_PowerLaw2_integral_partial",
    "C36_PowerLaw2_integral_refuted",
    "C36_BrokenPowerLaw2_integral_partial",
    "C36_BrokenPowerLaw2_integral_refuted",
    "C36_BrokenPowerLaw2_integral_from_break_refuted",
    "C36_BrokenPowerLaw3_partial",
    "C36_BrokenPowerLaw3_integral_partial",
    "C36_BrokenPowerLaw3_integral_refuted"
   ],
   "note": "Integral parameter: full for PowerLaw2 (all indices) and BrokenPowerLaw2 (all positions of the break), for BrokenPowerLaw3 when the limits are on one side of the break. integral(): right for PowerLaw2 unless Index = -1 (0/0, refuted); BrokenPowerLaw2/3 return the integral divided by the break energy (refuted), and use the wrong index when the range starts at the break (refuted)."
  },
  {
   "property": "C137",
   "status": "partial",
   "theorems": [
    "C37_BPLExpCutoff_partial",
    "C37_BPLExpCutoff_refuted",
    "C37_PLSuperExpCutoff4_refuted"
   ],
   "note": "Full for ExpCutoff, Band, BrokenPowerLaw2/3, MultipleBrokenPowerLaw, PiecewisePowerLaw. BPLExpCutoff is 0 exactly at BreakValue and Eabs (refuted for every non-zero prefactor; continuous elsewhere, _partial); PLSuperExpCutoff4 jumps where the Taylor polynomial takes over (refuted)."
  },
  {
   "property": "C138",
   "status": "partial",
   "theorems": [
    "C38_LogGaussian_value_partial",
    "C38_LogGaussian_value_refuted",
    "C38_GaussianError_derivatives_partial",
    "C38_LogGaussian_derivatives_partial",
    "C38_mean_refuted",
    "C38_sigma_refuted",
    "C38_scale_refuted"
   ],
   "note": "Values and derivative(x) of GaussianError are right for all parameters (C38_GaussianError_value, C38_derivative). LogGaussian's normalisation is fixed at construction, so its value is right until the parameters change (C38_LogGaussian_value_partial, C38_LogGaussian_value) and wrong afterwards (C38_LogGaussian_value_refuted). Parameter derivatives hold for Norm (the _derivatives_partial theorems) and are wrong for Mean and Sigma and for scales other than 1 (C38_mean_refuted, C38_sigma_refuted, C38_scale_refuted)."
  },
  {
   "property": "C139",
   "status": "partial",
   "theorems": [
    "C39_npred_partial",
    "C39_npred_refuted",
    "C39_npred_range_partial",
    "C39_one_source_partial",
    "C39_pixel_partial",
    "C39_pixel_rule_refuted",
    "C39_pixel_prefactor_refuted",
    "C39_pixel_reuse_refuted"
   ],
   "note": "Npred, Npred over a range, pixelCounts, the flux integrals, the one-source likelihood: derivative theorems for every spectrum whose derivByParam is its derivative. Missing: the Prefactor shortcut is wrong for a spectrum not proportional to Prefactor (C39_npred_refuted); Pixel::getFreeDerivs uses a different quadrature from modelCounts, a wrong direction for Prefactor, and adds to a non-empty vector (three refuted theorems)."
  },
  {
   "property": "C141",
   "status": "partial",
   "theorems": [
    "C41_history_partial",
    "C41_null_refuted",
    "C41_rebuild_refuted"
   ],
   "note": "Ownership of source maps over all histories of loading, rebuilding, replacing, taking out and destroying caches (C41_history_partial, C41_same_map, C41_errors). The history theorem excludes two kinds of call, shown to be wrong by C41_null_refuted (a point source without computed point sources gives a null map that is then used) and C41_rebuild_refuted (a rebuild that throws leaves a freed map in the cache)."
  },
  {
   "property": "C142",
   "status": "partial",
   "theorems": [
    "C42_history_partial",
    "C42_right_file_partial",
    "C42_object_map_partial",
    "C42_names_refuted",
    "C42_copy_refuted",
    "C42_delete_pointer_refuted",
    "C42_rebin_refuted",
    "C42_failed_read_refuted"
   ],
   "note": "Every map an object of the usual kind uses is live, the library's for its name (C42_history_partial), the same until deleted (C42_same_map), and read from the file and extension last given to the object (C42_right_file_partial, C42_object_map_partial: extension names without a colon). Calls excluded from the histories are shown to be wrong: copies of map objects are not told of deletions (C42_copy_refuted), deletion by address tells nobody (C42_delete_pointer_refuted), a rebinned map is lost at the next deletion of any map (C42_rebin_refuted), a failed read leaves the object watching the wrong name (C42_failed_read_refuted), and :: in names makes keys ambiguous (C42_names_refuted)."
  },
  {
   "property": "C146",
   "status": "partial",
   "theorems": [
    "C46_weighted_totals_partial",
    "C46_reference_bin_refuted",
    "C46_sparse_weighted_refuted",
    "C46_undispersed_window_refuted"
   ],
   "note": "Partial: unweighted totals, masks and add/subtract hold for all maps; weighted totals hold for dense maps without a reference bin; refuted with a reference bin, for sparse maps, and for the undispersed totals of the new dispersion method."
  },
  {
   "property": "C155",
   "status": "partial",
   "theorems": [
    "C55_SmoothBrokenPowerLaw_limits_partial",
    "C55_SmoothBrokenPowerLaw_limits_refuted"
   ],
   "note": "Normalisations, slopes, curvature and peak of eight spectra. The limits of SmoothBrokenPowerLaw hold if beta has the sign of Index1 - Index2 (C55_SmoothBrokenPowerLaw_limits_partial); with a positive beta and Index1 < Index2 the two indices are exchanged (C55_SmoothBrokenPowerLaw_limits_refuted)."
  },
  {
   "property": "C156",
   "status": "partial",
   "theorems": [
    "C56_history_partial",
    "C56_refuted"
   ],
   "note": "Proved for a rebuilt map and for all histories in which sources of one name stay where they are (C56_history_partial). Refuted for a source that replaces a deleted one of the same name at another place (C56_refuted): the cache keeps the map of the deleted source."
  },
  {
   "property": "C157",
   "status": "partial",
   "theorems": [
    "C57_complement_partial",
    "C57_bounds_refuted",
    "C57_refused_refuted",
    "C57_constructor_refuted"
   ],
   "note": "Value, derivatives and independence for all histories (C57_value, C57_derivative, with C40_history_partial); the complement form is bounded by 0 and the spectrum if the bounds are right (C57_complement_partial). Refuted: one right bound is enough for the form to be accepted (C57_bounds_refuted), a refused form is set nevertheless (C57_refused_refuted), the constructor always refuses it (C57_constructor_refuted)."
  },
  {
   "property": "C158",
   "status": "partial",
   "theorems": [
    "C58_part_partial",
    "C58_nonneg_partial",
    "C58_grid_refuted",
    "C58_below_refuted",
    "C58_above_refuted"
   ],
   "note": "Whole-grid and partial ranges proved on log-uniform grids (those RoiCuts makes). False on other grids, which computeExposure accepts (C58_grid_refuted), and for ranges outside the grid (UB below, negative counts above)."
  },
  {
   "property": "C160",
   "status": "partial",
   "theorems": [
    "C60_order_partial",
    "C60_order_refuted",
    "C60_tolerance_refuted",
    "C60_axes_refuted",
    "C60_exposure_partial",
    "C60_exposure_late",
    "C60_exposure_refuted",
    "C60_no_data"
   ],
   "note": "ScData and the exposure sum; the effective area, efficiency and inclination are arbitrary functions. Refuted: order of the first two rows, times just before the first interval, last interval dropped when the cuts end after the data."
  },
  {
   "property": "C161",
   "status": "partial",
   "theorems": [
    "C61_accept_value",
    "C61_accept_partial",
    "C61_accept_refuted",
    "C61_accept_early_refuted",
    "C61_read_again_refuted",
    "C61_set_again_refuted",
    "C61_tmax_refuted",
    "C61_strict_refuted"
   ],
   "note": "Selections by value; the library's GTI intersection and supercedes are arbitrary functions. Refuted: GTIs ignored when there is a time range, second read keeps the first GTIs, latest time with several GTI cuts, order dependence of the strict check, uninitialised zenith limit."
  },
  {
   "property": "C162",
   "status": "partial",
   "theorems": [
    "C62_set_get_partial",
    "C62_tied_partial",
    "C62_frame_partial",
    "C62_gradient_partial",
    "C62_fixed_in_one_refuted",
    "C62_free_in_later_refuted",
    "C62_stale_refuted",
    "C62_parameter_list_partial",
    "C62_parameter_list_refuted"
   ],
   "note": "Proved for common sources with the same free shape parameters, any number of components and sources, with each component's value and gradient taken as given functions (their own correctness is C19, C47, C51). Refuted: a shape parameter fixed in one component is still set there but its derivative is left out; free only in a later component it is missing from the vector and the derivatives divide by zero; binned components keep using the model computed before the values were set; the full parameter list loses every parameter called like the common normalisation except one."
  },
  {
   "property": "C163",
   "status": "partial",
   "theorems": [
    "C63_flags_partial",
    "C63_compare_model_partial",
    "C63_action_partial",
    "C63_flags_refuted",
    "C63_removed_refuted",
    "C63_added_refuted",
    "C63_compare_model_refuted",
    "C63_template_type_refuted",
    "C63_template_removed_refuted",
    "C63_relatch_refuted",
    "C63_prior_type_refuted"
   ],
   "note": "Exact on sources whose spectral and spatial types are unchanged; false otherwise. Refuted: added/removed accessors test each other's bits (and removal exchanges free and fixed), compare_model misses removed sources, a type change with moved parameters sets normalisation bits, a template source removed or of another type calls for no action, latching twice in the same object reports a spatial type change, a prior's type is not compared."
  },
  {
   "property": "C164",
   "status": "partial",
   "theorems": [
    "C64_bounds_partial",
    "C64_bounds_refuted",
    "C64_klims_refuted"
   ],
   "note": "partial: the merged grid and vectors are complete, in order and laid out alike (for grids whose edges in one component are further apart than the tolerance), and bins sit between the edges of their layer when no component splits bins of another; refuted: overlapping bins are put in a layer that ends before they do, and set_klims gives every component an empty range (both limits are looked up with kmin)"
  },
  {
   "property": "C165",
   "status": "partial",
   "theorems": [
    "C65_history_partial",
    "C65_update_partial",
    "C65_par_scales_partial",
    "C65_rebuild_refuted",
    "C65_dropped_refuted",
    "C65_zero_norm_refuted",
    "C65_zero_update_refuted",
    "C65_par_scales_refuted"
   ],
   "note": "partial: proved for counts proportional to the normalisation, without priors, weights and bin reduction: building, updating (with positive normalisations where a template is remade), fits and test-source operations keep the cache faithful, and refactoring at the current parameters changes the total by exactly the template sources fixed away from their reference value. Refuted: a rebuild reads reference values out of range whatever the new model, a zero normalisation makes building undefined, a template remade at zero normalisation is lost, updates of fixed sources or templates drop the test source, fixing everything at the current values changes the prediction"
  },
  {
   "property": "C166",
   "status": "partial",
   "theorems": [
    "C66_integral_partial",
    "C66_high_refuted",
    "C66_blind_refuted"
   ],
   "note": "partial: proved for all tables, energies and angles over the reals; energies above the grid are answered as the last energy although those below are refused (C66_high_refuted), and without exposure the integral jumps from zero to one so that no fraction has a containment angle (C66_blind_refuted). The root finder and the bilinear interpolation of st_facilities are external"
  },
  {
   "property": "C167",
   "status": "partial",
   "theorems": [
    "C67_lookup_partial",
    "C67_wrap_refuted",
    "C67_nearest_pixel_refuted",
    "C67_edge_refuted",
    "C67_roundtrip_partial",
    "C67_rotation_refuted",
    "C67_reference_refuted",
    "C67_planes_refuted",
    "C67_rewrite_refuted",
    "C67_nearest_energy_refuted"
   ],
   "note": "partial: the table, its look-up inside the map and the refusal off the map are proved for all projections and sizes. The code truncates pixel coordinates, so that a direction in the lower half of a pixel is answered with its neighbour (C67_nearest_pixel_refuted) and the first pixel takes a wider strip (C67_edge_refuted); a single look-up past the end of a row reads the next row (C67_wrap_refuted); the file drops the rotation and the reference pixel (C67_rotation_refuted, C67_reference_refuted), gives the wrong number of planes when edge bins were added (C67_planes_refuted) and cannot be written again (C67_rewrite_refuted); the first entry within tolerance is used, not the nearest (C67_nearest_energy_refuted). Exposure integrals and projections are external"
  },
  {
   "property": "C168",
   "status": "partial",
   "theorems": [
    "C68_last_column_refuted",
    "C68_negative_refuted",
    "C68_full_circle_partial",
    "C68_full_circle_refuted",
    "C68_index_partial",
    "C68_index_refuted",
    "C68_single_refuted",
    "C68_integral_refuted",
    "C68_product_refuted"
   ],
   "note": "partial: proved for all maps and coordinates. A map all around the sky answers the centre of its last column with the first one when not interpolating (C68_last_column_refuted), extrapolates or throws for negative pixel coordinates (C68_negative_refuted), and is not recognised when its column width is negative and falls the least bit short of the circle (C68_full_circle_refuted); one index too many is let through (C68_index_refuted); maps of one plane have no value at any other energy (C68_single_refuted); integrals fail next to a zero (C68_integral_refuted); the product with an exposure keeps energies it has no planes for (C68_product_refuted). The projection and the convolution with the point spread function are external"
  },
  {
   "property": "C169",
   "status": "partial",
   "theorems": [
    "C69_roundtrip_refuted",
    "C69_oblong_refuted",
    "C69_mirrored_refuted",
    "C69_rebin_hole_refuted",
    "C69_factor_zero_refuted",
    "C69_periodic_refuted",
    "C69_inside_refuted",
    "C69_pole_refuted"
   ],
   "note": "partial: proved for all sizes and factors. Maps made from counts keep their solid angles by row and read them by column: oblong maps read beyond the end (C69_oblong_refuted), square ones are weighed with mirrored solid angles (C69_mirrored_refuted). Pixels off the sky give intensities and means that are not numbers (C69_roundtrip_refuted, C69_rebin_hole_refuted); a rebinned all-sky map goes on wrapping though its padded columns overlap (C69_periodic_refuted); the closest pixel is sought only at the border (C69_inside_refuted); the pixel at the pole uses the wrong left edge (C69_pole_refuted); a factor of zero divides by zero (C69_factor_zero_refuted). The projection is external"
  },
  {
   "property": "C170",
   "status": "partial",
   "theorems": [
    "C70_step_refuted",
    "C70_negative_refuted",
    "C70_short_refuted",
    "C70_template_refuted",
    "C70_angular_refuted",
    "C70_getcenter_refuted",
    "C70_norm_refuted",
    "C70_stale_refuted",
    "C70_assign_refuted",
    "C70_zero_size_refuted",
    "C70_move_refuted",
    "C70_reread_refuted",
    "C70_limits_refuted",
    "C70_limits_partial",
    "C70_limits_wrap_refuted",
    "C70_reference_refuted",
    "C70_radius_refuted",
    "C70_unity_refuted"
   ],
   "note": "Proved for tables with rising abscissae and at least two points, for all histories of commands, and for cones that do not reach around the sky. Refuted: a repeated abscissa at either end of an accepted table has no value, a falling profile is negative beyond its table, one line is accepted and throws, the integral leaves out what lies before the table, parameters changed after the first evaluation are ignored, assignment may keep the old centre, getCenter and mapRefDir before an evaluation follow a null pointer, the normalisation has a derivative but no effect, a moved shape moves back when its size is set, parameters re-read as a vector have no effect, getDiffRespLimits has no return statement and its cones wrap around the sky, the radius is kept when the shape grows, and the integral of a disk is taken to be one on the sphere."
  },
  {
   "property": "C171",
   "status": "partial",
   "theorems": [
    "C71_pole_refuted",
    "C71_phi_partial",
    "C71_phi_refuted",
    "C71_limits_partial",
    "C71_limits_refuted"
   ],
   "note": "Partial: position angles are recovered to 1e-8 for directions that are neither opposite to the event nor 90 degrees due north or south of it, where the code divides zero by zero; the range of position angles holds all corners when these differ by 180 degrees at most, and leaves out every corner between the smallest and the largest otherwise."
  },
  {
   "property": "C172",
   "status": "partial",
   "theorems": [
    "C72_reuse_refuted",
    "C72_partial_range_refuted",
    "C72_verbose_refuted",
    "C72_one_row_refuted",
    "C72_annular_refuted",
    "C72_hpx_point_refuted",
    "C72_psf_exposure_refuted"
   ],
   "note": "Violated: see the refuted theorems."
  },
  {
   "property": "C173",
   "status": "partial",
   "theorems": [
    "C73_flags_refuted",
    "C73_escape_refuted",
    "C73_multiple_refuted",
    "C73_composite_refuted",
    "C73_half_refuted",
    "C73_position_refuted",
    "C73_no_position_refuted",
    "C73_knots_refuted",
    "C73_exposure_refuted",
    "C73_atomic_refuted",
    "C73_type_refuted",
    "C73_flux_refuted",
    "C73_coordinate_refuted"
   ],
   "note": "Violated: see the refuted theorems."
  },
  {
   "property": "C174",
   "status": "partial",
   "theorems": [
    "C74_plain_sparse_refuted",
    "C74_edge_refuted",
    "C74_stale_refuted",
    "C74_twice_refuted",
    "C74_kept_refuted",
    "C74_uncomputed_refuted",
    "C74_outside_refuted",
    "C74_split_refuted",
    "C74_overwritten_refuted"
   ],
   "note": "Refuted: sparse maps without spectrum always throw; the first pixel after the range is written outside the vector; stale spectra make add and subtract disagree; reused vectors accumulate; the single-source call discards maps that should be kept; uncomputed point sources use a null pointer; counts spectra outside the fit range divide by zero; with 500 or more sources the maps are not found again; the empty file name overwrites the file."
  },
  {
   "property": "C175",
   "status": "partial",
   "theorems": [
    "C75_faint_source_refuted",
    "C75_vanishing_flux_refuted",
    "C75_no_events_refuted",
    "C75_many_parameters_refuted",
    "C75_stale_refuted",
    "C75_quantile_refuted"
   ],
   "note": "Refuted: a source with at most one per cent of every event is fitted away; a flux density below 1e-20 counts as if its logarithm were zero; the fit loops for ever when the statistics add up to zero and for 2000 or more free parameters (the tolerance is negative); the tolerance for 10 parameters has probability above 0.72; the parameter list and the predicted counts of the object stay those from before the fit."
  },
  {
   "property": "C176",
   "status": "partial",
   "theorems": [
    "C76_odd_refuted",
    "C76_one_refuted",
    "C76_negative_refuted",
    "C76_single_energy_refuted",
    "C76_zero_plane_refuted",
    "C76_prefactor_refuted",
    "C76_two_ways_refuted",
    "C76_flat_healpix_refuted",
    "C76_failed_refuted"
   ],
   "note": "Refuted: below or above its energies a positive exposure map gives negative exposures; one energy is undefined behaviour; a total that is zero at one energy only makes the map-based integral throw and leaves the source with fewer exposures than energies; the two ways differ between the energies; the map-based one ignores the normalisation; a one-plane HEALPix template reads a plane that does not exist; with an odd number of pixels the map is half a pixel off; a map of one energy or one column divides by zero."
  },
  {
   "property": "C177",
   "status": "partial",
   "theorems": [
    "C77_no_edges_refuted",
    "C77_few_cells_refuted",
    "C77_sizes_refuted",
    "C77_short_alpha_refuted",
    "C77_negative_refuted",
    "C77_partial_sky_refuted",
    "C77_edge_pixel_refuted",
    "C77_off_centre_refuted",
    "C77_energy_step_refuted",
    "C77_range_map_refuted",
    "C77_range_counts_refuted",
    "C77_healpix_events_refuted",
    "C77_healpix_within_refuted",
    "C77_healpix_copy_refuted",
    "C77_healpix_from_map_refuted",
    "C77_healpix_weights_file_refuted"
   ],
   "note": "Refuted: fewer than 20 cells is an integer division by zero; maps of unequal size are read out of bounds; negative contents give weights that are not positive; the map of a range of energies sums the wrong planes and has no third axis; CDELT3 is the range over n - 1; a HEALPix map counts nothing when its first energy exceeds the number of bins, its copy has an unset radius, a partial-sky effective background uses the wrong pixels, and writing it as a weights map deletes the table twice."
  },
  {
   "property": "C178",
   "status": "partial",
   "theorems": [
    "C78_cached_refuted",
    "C78_own_derivative_refuted",
    "C78_flux_refuted",
    "C78_npred_refuted",
    "C78_unloaded_refuted",
    "C78_stale_refuted",
    "C78_fixed_image_refuted",
    "C78_collision_refuted"
   ],
   "note": "Refuted: all point members use the response of the first; the derivative by the composite's own parameter is that of the members, or an exception; the flux ignores the members; the exposure is never computed; a source whose map is not loaded is lost in merging; the map of a split composite is given to the next composite of that name; a user's image of a fixed source is replaced; a name added again meanwhile loses the members."
  },
  {
   "property": "C179",
   "status": "partial",
   "theorems": [
    "C79_zero_bounds_refuted",
    "C79_one_bound_refuted",
    "C79_reversed_refuted",
    "C79_file_lost_refuted",
    "C79_outside_limits_refuted"
   ],
   "note": "Refuted: no bounds fill the memory; one bound gives no bin and no error; reversed bounds count no event; writing before the bounds are set removes the old file and throws; the spectrum of a source outside of the energy limits divides by zero."
  },
  {
   "property": "C180",
   "status": "partial",
   "theorems": [
    "C80_left_at_last_refuted",
    "C80_first_error_refuted",
    "C80_bounds_refuted",
    "C80_klims_refuted",
    "C80_summed_klims_refuted",
    "C80_unknown_refuted",
    "C80_flat_refuted"
   ],
   "note": "Refuted: the normalisation is left at the last value of the scan and free; the range uses the first uncertainty; an upper bound below 2.5 makes every scan fail; after a spectrum the limits are one too large and the likelihood reads beyond its counts; limits of sums are empty ranges; an unknown source is undefined behaviour; a best value above 2.5 without uncertainty gives one value only."
  },
  {
   "property": "C181",
   "status": "partial",
   "theorems": [
    "C81_columns_refuted",
    "C81_single_file_refuted",
    "C81_single_energy_refuted",
    "C81_index_refuted",
    "C81_tiny_refuted",
    "C81_layer_refuted",
    "C81_units_refuted",
    "C81_rebin_two_refuted",
    "C81_rebin_refuted"
   ],
   "note": "Refuted: every column becomes a plane; one column gets the energy 100; one plane at another energy, and the index equal to the number of planes, read past the end; tiny negative values are returned at the energy of a plane; convolve returns one plane with all the energies; degrees are compared with radians; rebin uses nside as the order of the map, always fails for a factor of two and otherwise never gives nside / factor."
  },
  {
   "property": "C182",
   "status": "partial",
   "theorems": [
    "C82_subset_refuted",
    "C82_global_refuted",
    "C82_fixed_refuted",
    "C82_fixed_global_refuted",
    "C82_error_scale_refuted",
    "C82_precise_refuted",
    "C82_scan_prior_refuted",
    "C82_scan_full_refuted",
    "C82_small_reference_refuted"
   ],
   "note": "Refuted: the central values are not reduced with the matrix; the wrong pointer is tested; the part of the parameters that is kept has the size of all sources; the factor two of the parabola is missing; for variances below 1e-10 nothing is set; only the local prior is used in scans; the reduced model is always read; priors of sources with reference below 1e-15 are dropped."
  },
  {
   "property": "C183",
   "status": "partial",
   "theorems": [
    "C83_wcs_partial_map_refuted",
    "C83_dense_stale_refuted",
    "C83_sparse_stale_refuted",
    "C83_sparse_edisp_refuted",
    "C83_sparse_unreadable_refuted",
    "C83_ebounds_refuted",
    "C83_drm_refuted",
    "C83_drm_edges_refuted",
    "C83_parameters_back_refuted",
    "C83_parameters_swapped_refuted",
    "C83_long_names_refuted",
    "C83_weights_map_refuted"
   ],
   "note": "Refuted: planes are taken from kmin on although a partial map starts there; columns and rows of the old map stay; planes above the counts map's energies raise an exception; unreadable rows become pixel zero; gaps are lost and an empty table is undefined; the number of added energies is not read; the arguments of getParam are swapped; names are cut at 32 characters; the table is deleted twice."
  },
  {
   "property": "C184",
   "status": "partial",
   "theorems": [
    "C84_gti_warning_refuted",
    "C84_gti_number_refuted",
    "C84_gti_zero_refuted",
    "C84_no_energy_refuted",
    "C84_hole_refuted",
    "C84_corner_refuted",
    "C84_evtype_refuted",
    "C84_unbinned_class_refuted",
    "C84_none_refuted",
    "C84_class_refuted"
   ],
   "note": "Refuted: only a warning, uninitialised numbers for different numbers of interval lists, zero for additional intervals; exception without energy cuts; holes are accepted and corners outside of the projection refused; the file's event types win; the counts map parameter is read in unbinned analyses; none is opened as a file; a table is read out of range."
  },
  {
   "property": "C185",
   "status": "partial",
   "theorems": [
    "C85_ltsum_atomic_refuted",
    "C85_ltsum_tables_refuted",
    "C85_ltsum_overlap_refuted",
    "C85_prob_rows_refuted",
    "C85_prob_rejected_refuted",
    "C85_prob_unknown_refuted",
    "C85_prob_columns_refuted",
    "C85_prob_case_refuted",
    "C85_prob_zero_refuted",
    "C85_asked_types_refuted",
    "C85_no_type_refuted"
   ],
   "note": "Refuted: the copy of the first file is made before the checks, and the first table is written before the second is checked; overlapping times are not looked for; rows are paired with accepted events by position; unknown names get 0; columns are compared in lower case; 0/0; events are typed by the file's selection, response functions loaded by the parameter."
  }
 ]
}
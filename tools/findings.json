{
 "theorems": {
  "C40_set_param_refuted": "setParam refuses a parameter that is valid within its own bounds, when its value is outside the bounds of the parameter it replaces.",
  "C60_order_refuted": "The order of the spacecraft file's rows is checked only from the third row on: two rows in the wrong order are accepted.",
  "C60_exposure_refuted": "The exposure of a point source leaves out the last interval when the good time reaches beyond it.",
  "C55_SmoothBrokenPowerLaw_limits_refuted": "With a positive Beta and Index1 < Index2 the indices of SmoothBrokenPowerLaw are exchanged: Index2 holds below the break.",
  "C42_delete_pointer_refuted": "Deleting a map by its address does not tell the objects that use it; the next use is of a freed map.",
  "C38_LogGaussian_value_refuted": "The normalisation of LogGaussian is that of the sigma at construction, not of the current one.",
  "C38_sigma_refuted": "The derivatives of LogGaussian and GaussianError with respect to Sigma are wrong wherever the argument is not the mean.",
  "C61_accept_refuted": "An event outside of all good time intervals is accepted if it is inside the last time range cut.",
  "C61_strict_refuted": "Whether a file with two energy ranges, one inside the other, is refused depends on their order.",
  "C46_sparse_weighted_refuted": "For a sparse map the weighted sums visit only the non-zero entries of the plane of the bin itself, so counts that come from the next plane alone are missed.",
  "C33_LogNormal_refuted": "LogNormal: no derivative (0/0) with respect to the prefactor where it is zero.",
  "C33_ExpCutoffSEDPeak_refuted": "ExpCutoffSEDPeak: no derivative (0/0) with respect to the first parameter where it is zero.",
  "C33_EblAtten_refuted": "EblAtten: the derivative with respect to tau_norm leaves out the parameter's scale.",
  "C33_PiecewisePowerLaw_refuted": "PiecewisePowerLaw: the derivative with respect to an index leaves out the parameter's scale.",
  "C34_zero_prefactor_refuted": "No derivative (0/0) with respect to the prefactor where it is zero, for the functions with an exponential cutoff.",
  "C34_BPLExpCutoff_refuted": "BPLExpCutoff: with a prefactor of zero the derivative with respect to it is wrong.",
  "C35_BrokenPowerLaw2_refuted": "BrokenPowerLaw2: the derivative with respect to an index is zero on the side of the break on which it is not used directly, although the normalisation depends on it.",
  "C35_SmoothDoubleBrokenPowerLaw_refuted": "SmoothDoubleBrokenPowerLaw: the derivative with respect to Index2 leaves out the parameter's scale.",
  "C35_BandFunction_refuted": "BandFunction: the derivative with respect to Alpha is wrong when Alpha is not above Beta.",
  "C35_zero_prefactor_refuted": "No derivative (0/0) with respect to the prefactor where it is zero, for SmoothBrokenPowerLaw, SmoothDoubleBrokenPowerLaw and BandFunction.",
  "C35_MultipleBrokenPowerLaw_refuted": "MultipleBrokenPowerLaw: the derivative with respect to an index leaves out the parameter's scale.",
  "C20_summed_fixed_group_refuted": "In a summed likelihood a fixed group before the searched parameter shifts the index that is reported.",
  "C26_fixed_change_refuted": "Changing a parameter of a source without free parameters and synchronising is not enough: the predicted counts stay the old ones.",
  "C26_after_throw_refuted": "After an evaluation that threw, the terms of the events before the one that threw are counted again in the next value.",
  "C50_fixed_change_refuted": "After a change of a fixed parameter, going back to the best fit restores free parameters that are not the best for the model at hand.",
  "C72_reuse_refuted": "The map of a point source is added to what the vector passed in holds: filling the same vector twice doubles the map.",
  "C72_partial_range_refuted": "With PSF corrections a range of energies that does not start at the first one is undefined behaviour: the corrections loop runs over all energies.",
  "C72_verbose_refuted": "Progress output (on by default) for a map with fewer than 20 cells divides by zero.",
  "C72_one_row_refuted": "The adaptive PSF estimate on a map one pixel high reads a row that does not exist.",
  "C72_annular_refuted": "The annular PSF estimate is 0/0 in pixels off the sky, whose solid angle is zero.",
  "C72_hpx_point_refuted": "Without convolution, HEALPix maps hold the exposure times the solid angle of a pixel; maps on a plane hold the exposure.",
  "C72_psf_exposure_refuted": "Without an exposure map, the exposure is read from the PSF by position although the PSF's energies are extended for energy dispersion: every layer gets the exposure of a lower energy.",
  "C73_flags_refuted": "apply_edisp, apply_psf and apply_exposure are read from XML files but never written: a source with a flag off comes back with it on.",
  "C73_escape_refuted": "Text is written to XML files without escapes: a quote in a source name makes a file that cannot be read, and an entity changes the name.",
  "C73_multiple_refuted": "MultipleBrokenPowerLaw is registered under that name but writes and expects 'MultipleBPL': no XML file can hold one.",
  "C73_composite_refuted": "reReadXml throws on composite sources: a model with one cannot be read again from its own file.",
  "C73_half_refuted": "When reReadXml throws at a composite, sources earlier in the file have already been changed.",
  "C73_position_refuted": "reReadXml does not restore a position that moved by at most 1e-4 radians (20 arc seconds).",
  "C73_no_position_refuted": "A point source whose file gives no position is put at (0, 0) without an error.",
  "C73_knots_refuted": "reReadXml sets the energy parameters of a PiecewisePowerLaw (or MultipleBPL) but not the energies the function uses.",
  "C73_exposure_refuted": "SourceFactory passes requireExposure as the verbose argument of PointSource: exposures of point sources are always computed.",
  "C73_atomic_refuted": "readXml into a model with a source of the same name throws after adding the sources that come before it.",
  "C73_type_refuted": "A source whose type is misspelt is left out of the model without an error.",
  "C73_flux_refuted": "write_fluxXml writes a power law of index 2 for every source, and nothing of the shape of a diffuse source.",
  "C74_plain_sparse_refuted": "Adding a sparse map without its spectrum always throws: `int ie = -1` is compared with an unsigned size (SourceMap.cxx 781-783).",
  "C74_edge_refuted": "For a sparse map the range of pixels ends with upper_bound(kmax*npix), which includes pixel kmax*npix: if it is stored, the write is one past the end of the vector (SourceMap.cxx 778, 829).",
  "C74_stale_refuted": "addToVector_full and subtractFromVector_sparse use the spectral values of the last refresh, subtractFromVector_full and addToVector_sparse those of the current parameters: after a parameter change subtracting does not undo adding, and the result depends on how the map is stored (SourceMap.cxx 741-836).",
  "C74_twice_refuted": "computeModelMap resizes the vector but does not clear it: a vector used twice holds twice the counts (SourceMapCache.cxx 337-369).",
  "C74_kept_refuted": "The single-source computeModelMap erases a map it had to make even if all source maps are to be kept in memory; the list version keeps it (SourceMapCache.cxx 344-348, 363-366).",
  "C74_uncomputed_refuted": "For a point source whose map is neither in memory nor in the file, when point sources are not computed, a null pointer is stored and dereferenced (SourceMapCache.cxx 131-147, 341-343).",
  "C74_outside_refuted": "countsSpectrum(src, false) divides by the model outside the fitted range of planes, where it is zero, and returns NaN (BinnedLikelihood.cxx 935-966).",
  "C74_split_refuted": "With 500 or more sources the maps are saved in <file>_0.fits, <file>_1.fits, ..., but are looked for in <file> only (SourceMapCache.cxx 281-290, 125-129).",
  "C74_overwritten_refuted": "saveSourceMaps(\"\") tests whether the file named \"\" exists, so it overwrites the source maps file in use with a fresh counts map, and maps saved earlier that are not in memory are lost (BinnedLikelihood.cxx 459-472).",
  "C73_coordinate_refuted": "A coordinate that is not a number is read as 0 without an error: the source is put at right ascension or declination 0 (SourceFactory.cxx 153-164, 365-383).",
  "C75_faint_source_refuted": "EM fit: pairs of event and source with weight at most 0.01 are ignored, so a source that is faint in every event keeps only its predicted counts in its statistic and is fitted away; the likelihood falls although the optimizer is exact (OptEM.cxx 63-64, OneSourceFunc.cxx 46-50).",
  "C75_vanishing_flux_refuted": "EM fit: a flux density below 1e-20 is skipped, which counts as logarithm zero and is better than any flux density below one; the best parameters can make an event impossible (OneSourceFunc.cxx 49-50).",
  "C75_no_events_refuted": "EM fit: `oldLogL == 0.` is the mark of the first round; if the statistics add up to zero (no events, no predicted counts) the loop never ends (OptEM.cxx 90).",
  "C75_many_parameters_refuted": "EM fit: the quartic for the tolerance is negative from about 1910 free parameters on, so with 2000 or more the loop never ends (OptEM.cxx 90, 109-110).",
  "C75_stale_refuted": "EM fit: findMin changes the sources but neither the parameter list nor the cached predicted counts of the object; value() afterwards combines new flux densities with old predicted counts (OptEM.cxx 23-97, LogLike.cxx 67-74, 343-352).",
  "C75_quantile_refuted": "The tolerance is documented as the chi-squared value of cumulative probability 0.683; for 10 degrees of freedom that probability is above 0.72 (OptEM.cxx 99-113).",
  "C76_negative_refuted": "Outside the energy range of the exposure map the exposure is extrapolated on a straight line and can be negative although all exposures of the map are positive (ExposureMap.cxx 95-116).",
  "C76_single_energy_refuted": "With an exposure map of one energy both ways of integrating a diffuse source read outside the vectors (ExposureMap.cxx 97-111, MapCubeFunction2.cxx 166-184).",
  "C76_zero_plane_refuted": "If the exposure of a source is zero at one energy of the exposure map and positive at the next, integrating over its own map throws (MapBase.cxx 222-235).",
  "C76_prefactor_refuted": "The parameter Normalization (Prefactor) is part of the value of a map cube (map) but the map-based integral ignores it, so predicted counts and event densities are normalised differently (MapCubeFunction2.cxx 54-59, 135-185).",
  "C76_two_ways_refuted": "Setting MAP_BASED_NPRED changes the exposures between the energies of the exposure map, even for a source whose totals agree: one way is linear in log energy, the other a power law.",
  "C76_flat_healpix_refuted": "A HEALPix template of one plane can be evaluated but not integrated over its map: the plane after the last is read unless the exposure map's energies are all 100 MeV (SpatialMap.cxx 100-112, HealpixProjMap.cxx 384-427, ProjMap.cxx 174-179).",
  "C76_failed_refuted": "A calculation of the exposure that throws leaves the new energies with fewer exposures; the predicted counts then read outside the vector (DiffuseSource.cxx 56-90).",
  "C76_odd_refuted": "With an odd number of pixels the reference pixel of a computed exposure map is half a pixel beside its middle: nlon/2 is an integer division (ExposureMap.cxx 139).",
  "C76_one_refuted": "A map of one energy or one column is a division by zero in its steps (ExposureMap.cxx 134, 141).",
  "C77_no_edges_refuted": "With no energy edges the widths and centres of another map stay in the output vector (CountsMapBase.cxx 46-67).",
  "C77_few_cells_refuted": "The progress display of the alpha weights computes idx % (ndata/20): an integer division by zero for a map of fewer than 20 cells (CountsMapBase.cxx 100-124).",
  "C77_sizes_refuted": "Combining background maps of unequal size reads past the end of the shorter one (CountsMapBase.cxx 100-124).",
  "C77_short_alpha_refuted": "A combined weights map with fewer cells than the background leaves the later cells without their combined weight, silently (CountsMapBase.cxx 126-148).",
  "C77_negative_refuted": "Backgrounds below zero, which a convolution can produce, give weights that are zero or negative, or a division by zero (CountsMapBase.cxx 91-148).",
  "C77_partial_sky_refuted": "The effective background of a HEALPix map of part of the sky reads the convolved whole-sky map at the local pixel number (CountsMapHealpix.cxx 144-154).",
  "C77_edge_pixel_refuted": "A pixel with its centre on the sky but a corner off it is put at the origin of the coordinates with no solid angle (CountsMap.cxx 587-607).",
  "C77_off_centre_refuted": "The test whether a map is centred truncates both sides to integers: a reference pixel 0.2 pixels beside the middle conforms (CountsMap.cxx 631-638).",
  "C77_energy_step_refuted": "CDELT3 of a map with n logarithmic energy bins is log(emax/emin)/(n-1); for one bin it is not a number (CountsMap.cxx 351-363).",
  "C77_range_map_refuted": "The map of a range of energies has two axes: asking for its third dimension or writing its header reads past the end of the list of axes (CountsMapBase.cxx 313-326, 384-391, CountsMap.cxx 498-518).",
  "C77_range_counts_refuted": "The map of a range of energies has the energies of the range but the counts of other planes (CountsMapBase.cxx 313-326 with the projection of HistND).",
  "C77_healpix_events_refuted": "A HEALPix counts map finds the numbers of the pixel and energy bin of an event and then looks these numbers up again as if they were an energy: with a first edge above the number of bins no event is counted (CountsMapHealpix.cxx 163-181).",
  "C77_healpix_within_refuted": "For the same reason no direction is within the bounds of such a map (CountsMapHealpix.cxx 183-196).",
  "C77_healpix_copy_refuted": "The copy constructor of a HEALPix counts map does not copy its radius; translating pixel numbers of the copy reads an uninitialised member (CountsMapHealpix.cxx 67-74).",
  "C77_healpix_from_map_refuted": "Making a HEALPix counts map from an intensity map reads past the end of the energies (CountsMapHealpix.cxx 95-97).",
  "C77_healpix_weights_file_refuted": "Writing a HEALPix map as a weights map deletes its table twice (CountsMapHealpix.cxx 225, 233).",
  "C78_cached_refuted": "A composite hands the same cached response to all its members: in an unbinned fit every point source in it is given the response at the place of the first one (CompositeSource.cxx 88-116, PointSource.cxx 105-115).",
  "C78_own_derivative_refuted": "The derivative of a composite's density by a parameter of its own spectrum is the sum of the members' derivatives by their parameter of that name times its spectrum, or an exception if a member has none (CompositeSource.cxx 118-156).",
  "C78_flux_refuted": "The flux of a composite is the integral of its own spectrum; the members do not enter (CompositeSource.cxx 164-185).",
  "C78_npred_refuted": "computeExposure of a composite throws, its exposure stays empty, and its predicted counts read past the end of it (CompositeSource.cxx 159-162, Source.cxx 66-81).",
  "C78_unloaded_refuted": "Merging a source whose map has not been made yet throws after the source has left the model; it is then in neither (CompositeSource.cxx 218-229, SourceMapCache.cxx 175-182).",
  "C78_stale_refuted": "Splitting leaves the map of the composite in the cache; the next composite of the same name is given it, whatever its members (SourceModel.cxx 263-281, SourceMapCache.cxx 112-147).",
  "C78_fixed_image_refuted": "A fixed source under the single fixed map ignores the map handed over by the composite: after merging and splitting an image set by the user is replaced by the computed one (BinnedLikelihood.cxx 323-339, 864-902).",
  "C78_collision_refuted": "Splitting throws at the first member whose name is in use; the composite and the members not yet moved are then in no model (SourceModel.cxx 263-281).",
  "C79_zero_bounds_refuted": "setEbounds with nbounds = 0 loops to 2^64 - 1, filling memory until an exception (CountsSpectra.cxx 31).",
  "C79_one_bound_refuted": "setEbounds with nbounds = 1 is accepted: the only bound is emax, there are no bins, and all spectra are empty (CountsSpectra.cxx 23-35, 217-221).",
  "C79_reversed_refuted": "setEbounds with emin > emax is accepted, and no event is counted (CountsSpectra.cxx 23-35, EventContainer.cxx 239-265).",
  "C79_file_lost_refuted": "writeTable removes the old file before anything is checked: without bounds it throws and leaves an empty table (CountsSpectra.cxx 106-115).",
  "C79_outside_limits_refuted": "countsSpectrum(source, false) while the energies are limited by set_klims divides by the model, which is zero outside of the limits (BinnedLikelihood.cxx 935-966, 577-591).",
  "C80_left_at_last_refuted": "scan_norm_binned leaves the normalisation at the last value of the scan instead of the best or the former one, and always free, even if it was fixed before (ScanUtils.cxx 136-157).",
  "C80_first_error_refuted": "scan_norm_binned takes uncertainies[0], the standard deviation of the first free parameter of the model, as that of the normalisation (ScanUtils.cxx 120).",
  "C80_bounds_refuted": "The scan always reaches at least 2.5; a normalisation with a lower upper bound cannot be scanned, setValue throws (ScanUtils.cxx 123, 143).",
  "C80_klims_refuted": "sed_binned resets the energy limits to (0, nebins + 1), one too many; the next value() reads beyond the counts (ScanUtils.cxx 187).",
  "C80_summed_klims_refuted": "set_klims of a summed likelihood looks up kmin twice, so that every component gets an empty energy range (FitScanner.cxx 904-916).",
  "C80_unknown_refuted": "scan_norm_binned with the name of a source that is not in the model uses a null pointer (ScanUtils.cxx 89-90).",
  "C80_flat_refuted": "With an uncertainty of zero and a best value of 2.5 or more all values of the scan are the same (ScanUtils.cxx 122-130).",
  "C81_columns_refuted": "The test find(...) >= 0 on an unsigned number is always true: every column of a HEALPix file becomes a plane, so that a PIX column is used as the map at the first energy (HealpixProjMap.cxx 161).",
  "C81_single_file_refuted": "A HEALPix file with one column gets the energy 100, whatever its energy extension says (HealpixProjMap.cxx 110-187).",
  "C81_single_energy_refuted": "operator()(dir, energy) of a map with one plane reads a second plane at any other energy than that of the plane (HealpixProjMap.cxx 391-427).",
  "C81_index_refuted": "check_energy_index accepts k equal to the number of planes, and the plane is read past the end (ProjMap.cxx 174-179).",
  "C81_tiny_refuted": "At the energy of a plane the value is returned before tiny negative values are lifted (HealpixProjMap.cxx 408-422).",
  "C81_layer_refuted": "convolve returns a map with one plane but all the energies and the old integrals; its second plane is read past the end (HealpixProjMap.cxx 448-472).",
  "C81_units_refuted": "convolve compares the size of the pixels in degrees with a radius in radians, so that maps are made finer needlessly (HealpixProjMap.cxx 474-483).",
  "C81_rebin_two_refuted": "rebin passes nside / factor to the Healpix_Map constructor that takes the order: a factor of two fails for every map (HealpixProjMap.cxx 562-579).",
  "C81_rebin_refuted": "When rebin succeeds, its planes never have nside / factor; the projection, the solid angle and the integrals are those from before, and the argument average is not used (HealpixProjMap.cxx 562-579).",
  "C82_subset_refuted": "latchReducedMatrix reduces the matrix to the constrained parameters but not the central values: every evaluation of a prior on a strict subset raises an exception (FitScanner.cxx 287-331).",
  "C82_global_refuted": "buildPriorsFromExternal tests m_prior_bkg where m_global_prior_bkg is meant: a global prior made after a local one updates a null pointer (FitScanner.cxx 1283).",
  "C82_fixed_refuted": "buildPriorsFromCurrent with the test source keeps nBkgModel() parameters, counting fixed sources: with one fixed source the test source's parameter becomes part of the prior and every evaluation fails, with more an exception is raised (FitScanner.cxx 1328-1330).",
  "C82_fixed_global_refuted": "baseline_newton constrains all sources, but the covariance has the free ones: with fixed sources the global prior with the test source has a matrix that does not match its central values, and every evaluation fails (FitScanner.cxx 2243-2244, 287-331).",
  "C82_error_scale_refuted": "signalUncertainty_quad solves x^2 / variance + gradient x = delta, without the factor 1/2 of the parabola: at the maximum the log-likelihood has dropped by delta / 2, and the errors are too small by the square root of two (FitScanner.cxx 1553-1571).",
  "C82_precise_refuted": "For variances below 1e-10 signalUncertainty_quad returns delta / gradient, truncated to an integer, as its status, and leaves the errors as they were (FitScanner.cxx 1557-1560).",
  "C82_scan_prior_refuted": "scanNormalization always uses the local prior, whatever prior the fit used (FitScanner.cxx 1504).",
  "C82_scan_full_refuted": "scanNormalization without other free sources sums m_targetRedModel even if models are not reduced and it is empty (FitScanner.cxx 1518).",
  "C82_small_reference_refuted": "extract_init_priors_from_model drops the prior of a source whose reference value is below 1e-15, negative ones included (FitScanner.cxx 1850-1856).",
  "C83_wcs_partial_map_refuted": "replace_image_from_float_vector_wcs copies the planes kmin to kmax of the vector, but a partial source map has only kmax - kmin planes: saving one with kmin > 0 reads past its end (FileUtils.cxx 386-392, SourceMapCache.cxx 534-585).",
  "C83_dense_stale_refuted": "replace_image_from_float_vector_healpix leaves the columns of the old map: with fewer planes the last planes of the old map are read back (FileUtils.cxx 398-460, 91-127).",
  "C83_sparse_stale_refuted": "replace_image_from_sparse_vector_healpix does not shorten the table: the last rows of the old map stay, keys are not sorted any more and look-ups give wrong or undefined results (FileUtils.cxx 463-546).",
  "C83_sparse_edisp_refuted": "A sparse source map with the planes that are added for the energy dispersion raises an exception on writing: planes are compared with the energies of the counts map (FileUtils.cxx 534-537).",
  "C83_sparse_unreadable_refuted": "Up to ten unreadable rows become entries of pixel 0, plane 0; within the table they break the order of the keys, so that look-ups of good entries fail (FileUtils.cxx 160-168).",
  "C83_ebounds_refuted": "read_ebounds_to_vector uses an uninitialised upper energy for an empty table, and drops the upper edge of a bin followed by a gap (FileUtils.cxx 58-75).",
  "C83_drm_refuted": "read_drm_from_table makes a Drm with no added energies, but keeps the rows of those: convolve uses the rows of the wrong true bins (FileUtils.cxx 843-884, Drm.cxx 78-111).",
  "C83_drm_edges_refuted": "read_drm_from_table takes the lower edges of the second to last row as energies, right only for one added energy at each end: without added energies the first and the last are lost, with two the matrix is read past the ends of its rows, with one row an empty vector is read (FileUtils.cxx 866-880).",
  "C83_parameters_back_refuted": "read_parameters_from_table raises an exception for every table that write_model_parameters_to_table writes: the function name in the table is not \"Spectrum\", the only one getParam accepts (FileUtils.cxx 777, SourceModel.cxx 354-364).",
  "C83_parameters_swapped_refuted": "read_parameters_from_table passes source, function and parameter name to getParam, which takes parameter, function and source name (FileUtils.cxx 777).",
  "C83_long_names_refuted": "Names are written to columns of 32 characters: sources with the same first 32 characters get the same rows (FileUtils.cxx 644-646).",
  "C83_weights_map_refuted": "CountsMapHealpix::writeAsWeightsMap deletes the table a second time at its end (CountsMapHealpix.cxx 225, 233).",
  "C84_gti_warning_refuted": "No tool passes gtiWarningOnly = false: livetime cubes and exposure maps of other times than the events' only give a warning (AppHelpers.h 119-142, AppHelpers.cxx 761-768).",
  "C84_gti_number_refuted": "If the numbers of GTI cuts of the two files differ, checkTimeCuts prints gti_start_diffs and gti_stop_diffs without having set them (AppHelpers.cxx 740, 828-853).",
  "C84_gti_zero_refuted": "If one file has additional intervals after the common ones, the reported differences are zero (AppHelpers.cxx 843-848).",
  "C84_no_energy_refuted": "checkExpMapCuts needs an ENERGY cut in both files: without, getRangeBounds raises std::out_of_range although all energies are selected in both (AppHelpers.cxx 91).",
  "C84_hole_refuted": "checkExposureMap_wcs looks only at the border of the counts map: pixels inside that are not covered are not noticed (AppHelpers.cxx 968-1008).",
  "C84_corner_refuted": "checkExposureMap_wcs asks for the directions of all border pixels: a counts map with corners outside of the projection (all-sky Aitoff maps) is refused with an exception, whatever the exposure map covers (AppHelpers.cxx 996-999).",
  "C84_evtype_refuted": "With irfs = CALDB the evtype parameter is silently ignored if the file has an EVENT_TYPE selection (AppHelpers.cxx 497-507).",
  "C84_unbinned_class_refuted": "createResponseFuncs of an unbinned analysis, if the exposure map has no EVENT_CLASS cut, looks in the cmap parameter, a file of another analysis, instead of the event file, and raises an exception if there is no such parameter (AppHelpers.cxx 478-493).",
  "C84_none_refuted": "createResponseFuncs of a binned analysis opens the file \"none\" if that is the value of bexpmap; only expmap is tested for it (AppHelpers.cxx 458-471).",
  "C84_class_refuted": "responseFuncs reads respcombos out of range for lower ends of the event class above 4 or below -1 (AppHelpers.cxx 400).",
  "C85_ltsum_atomic_refuted": "gtltsum copies the first file to the output before it compares zenith angles and sizes: after the exception the output exists, or an old one is replaced, and holds the first file alone (gtaddlivetime.cxx 82-85).",
  "C85_ltsum_tables_refuted": "If the WEIGHTED_EXPOSURE tables cannot be added, the output keeps the summed EXPOSURE beside the WEIGHTED_EXPOSURE of the first file (gtaddlivetime.cxx 84-85).",
  "C85_ltsum_overlap_refuted": "gtltsum does not look for overlapping times: the same file given twice doubles all livetimes within the same TSTART and TSTOP (gtaddlivetime.cxx 170-217).",
  "C85_prob_rows_refuted": "gtsrcprob reads the events with the region-of-interest cut but walks through all rows of the file: after a rejected event every row gets the probability of a later event (gtsrcprob.cxx 164, 221-237; EventContainer.cxx 152).",
  "C85_prob_rejected_refuted": "For the same reason gtsrcprob ends with std::out_of_range from events.at(j) if any event was rejected, with the wrong rows already in the output (gtsrcprob.cxx 230).",
  "C85_prob_unknown_refuted": "A name in the list of sources that is not in the model gets a column of zeros (operator[] of std::map, gtsrcprob.cxx 236).",
  "C85_prob_columns_refuted": "A source named like a column of the event file (energy, time, ra) overwrites that column (gtsrcprob.cxx 197-198, 236).",
  "C85_prob_case_refuted": "Two sources whose names differ only in case make gtsrcprob fail, as columns are compared in lower case (gtsrcprob.cxx 197-199); this relies on tip refusing a second column of the same name.",
  "C85_prob_zero_refuted": "If the densities of all sources vanish for an event, 0/0 is written (gtsrcprob.cxx 236).",
  "C85_asked_types_refuted": "gtfindsrc, gttsmap and gtsrcprob load the response functions of the evtype parameter, but getEvents types events by the file's own EVENT_TYPE selection (front and back without one) before any cut: an event of a type not asked for makes respPtr return a null pointer that is dereferenced (EventContainer.cxx 61-69, 130-136; AppHelpers.cxx 528-547).",
  "C85_no_type_refuted": "For an event without a type of the mask, log(0)/log(2) is converted to an integer (EventContainer.cxx 130-131)."
 },
 "other": {
  "C23": [
   "BinnedLikelihood::countsSpectrum divides by the model counts of bins outside of the selected range, which are zero."
  ],
  "C42": [
   "ExposureMap keeps a pointer to a map of the library without observing it."
  ],
  "C41": [
   "SourceMapCache's copy constructor initialises members from themselves.",
   "setSourceMapImage dereferences a null pointer for an unknown source."
  ],
  "C63": [
   "operator&(unsigned) of the status uses |.",
   "Free_Changed_Mask is built from the wrong constant.",
   "print_source of an unknown name dereferences end().",
   "The default copy of a snapshot frees its sources twice; deep_copy of an unowned snapshot deletes the source's own normalisation parameter."
  ],
  "C64": [
   "Without components the number of merged bins wraps around."
  ],
  "C65": [
   "FitScanMVPrior::update with a covariance matrix reduces only the Hessian to the free parameters, the central values and the covariance keep their size.",
   "buildPriorsFromExternal with globalPrior tests m_prior_bkg and uses m_global_prior_bkg.",
   "signalUncertainty_quad solves a x^2 + b x = delta without the factor 1/2 and returns a truncated quotient as a status.",
   "fillModelCounts with an unknown name uses index -1."
  ],
  "": [
   "CompositeSource::fluxDensity passes the same cached response to all of its components.",
   "SourceMap::addToVector without the spectrum always throws (ie = -1 compared as an unsigned number).",
   "fitLogNorms_newton does not rescale the diagonal of the covariance and returns a log-likelihood of zero.",
   "RoiCuts::setCuts after readCuts frees the same cuts twice.",
   "PointSource::fluxDensityDeriv with an inclination passes an angle where a direction is expected."
  ]
 }
}
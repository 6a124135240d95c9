{
 "C43": {
  "note": "Reads after resize are proved in both directions; the size after a shrinking resize is refuted (m_size is not updated)."
 },
 "C05": {
  "note": "The external evtbin::Binner is an arbitrary index function; contents and weights are arbitrary types with an arbitrary += (so rounding is covered)."
 },
 "C07": {
  "note": "Over the reals. Integrals are Coquelicot's is_RInt."
 },
 "C08": {
  "note": "Arbitrary element type and operations (covers rounding); ring laws only for bilinearity and for subtract-undoes-add. The output may alias an input."
 },
 "C09": {
  "note": "Over the reals, for positive energies."
 },
 "C10": {
  "note": "Proved with equality of outcomes (value or exception) for non-negative models, layers of any non-zero size and any range of layers, weighted and unweighted. Refuted: a negative model bin without data is masked by the lumping; weights lumped with one model are wrong for another (the scanner lumps them once, with the initial model). An energy layer with zero pixels is excluded by hypothesis (the by-layer variant then never emits another placeholder)."
 },
 "C11": {
  "note": "Over the reals."
 },
 "C12": {
  "note": "Over the reals; state after an exception not covered."
 },
 "C44": {
  "note": "Proved for the compressed representation; refuted for the uncompressed one, where the stop indices have a leading zero and every range loses its last layer."
 },
 "C13": {
  "note": "Proved for bins whose weighted counts are clear of the 1e-9 threshold; C13_small_weight_refuted shows the gradient is not the gradient of the likelihood when a positive weight pushes counts below it. Exact real arithmetic."
 },
 "C14": {
  "note": "Proved for damped fits with counts (every return code) and for undamped fits up to a loss of 1; refuted for undamped fits (worse result reported as success), negative damping and empty data (reported log-likelihood belongs to other normalisations)."
 },
 "C45": {
  "note": "Holds for arbitrary solver output."
 },
 "C15": {
  "note": "Proved for every sequence of build/add/delete/deleteAll (refinement to an abstract map) and ownership for all sequences including setters. Names are integers (only compared)."
 },
 "C17": {
  "note": "Conservation proved for every call that succeeds or whose source is unknown; refuted for calls refused by the receiving model: the source has already left its model and is unreachable."
 },
 "C18": {
  "note": "Round trips and one-value-per-group proved for every composite reachable by add/tie/set; refuted where the code fails: ties mixing free and fixed members, groups fixed after tying, a parameter in two groups, a tie that throws half-way, members with different names."
 },
 "C20": {
  "note": "findIndex proved when every group is free; a fixed group shifts the index (refuted)."
 },
 "C21": {
  "note": "Proved for every call history without setWeightsMap(0) after deleteOriginalWeightMap, which the code ignores (refuted)."
 },
 "C22": {
  "note": "As C21 for the spectra; wrong-size counts proved refused without effect."
 },
 "C24": {
  "note": "All of it, for exact reals (no float rounding)."
 },
 "C47": {
  "note": "Holds on the domain stated; C47_rescaling_refuted shows that with the older correction-factor dispersion the gradient leaves out the dependence of the correction factors on the spectrum."
 },
 "C31": {
  "note": "Corrections, measured counts and rescaled map proved when the first bin has true counts (old method). Refuted without: a leading empty bin reads index -1; the first-negative message reads past the true counts; weighted true counts mix bins with the new method."
 },
 "C48": {
  "note": "Equal for planes that are not described by a reference bin, for full and sparse maps and every dispersion setting; refuted with a reference bin."
 },
 "C23": {
  "note": "Every history of addSource, deleteSource, setParam, freeing/fixing, setFreeParamValues, syncSrcParams, set_klims, loadSourceMap, eraseSourceMap, value and getFreeDerivs is covered, under: one image per name, no correction-factor dispersion, and no deletion of a source between a change to it and the next evaluation. The refuted theorems show each condition is needed: deletion after a change leaves a residue for ever, a reused name keeps the old map, an image set by hand is ignored for a fixed source, corrections are stale, and the gradient uses a stale model after setParam/deleteSource/freeing without syncSrcParams."
 },
 "C49": {
  "note": "Refuted: with no fixed source the next value() reads an empty vector; otherwise existing maps keep the old setting while the totals of free sources use the new one, and switching back is ignored. Only setting the value given at construction is shown harmless."
 },
 "C27": {
  "note": "Proved for every event list, with std::upper_bound modelled as the bisection of libstdc++."
 },
 "C53": {
  "note": "For events whose model sum is the sum over the sources (what C52 gives) and is not 0."
 },
 "C54": {
  "note": "Proved when all files list the same names in use, in the same order and before unused ones, sources differ by more than case, and none is present in the old '::' form. Each condition is shown needed by a refuted theorem; with clobber=yes existing columns are not recomputed."
 },
 "C26": {
  "note": "Value is the unbinned likelihood after any history covered by the careful-use conditions; refuted otherwise (changes to fixed sources, bounds unset, sources added within bounds, moved sources, evaluations that throw)."
 },
 "C50": {
  "note": "Restoring after a change of parameter values gives the saved values and likelihood; refuted when fixed values, other sources or bounds changed."
 },
 "C51": {
  "note": "The gradient is the derivative of value when parameters are synchronised; refuted otherwise."
 },
 "C52": {
  "note": "Holds after value() when fixed sources are not changed; refuted after changing a fixed source."
 },
 "C34": {
  "note": "Partial: zero prefactor gives 0/0 (refuted), exponent cut at log(1E100) has a wrong derivative (refuted), BPLExpCutoff with zero prefactor and scaled Eabs/P1 is wrong (refuted); everything else proved for all scales."
 },
 "C32": {
  "note": "Model of the static cache shared by all instances. C32_history: for every history over any number of instances, each call returns the closed form of the current parameters, over any carrier where x + 1 differs from x. C32_doubles_partial: the same for IEEE doubles (Flocq) below 2^53. C32_doubles_refuted: at energies from 2^53 on, where x + 1.0 == x, a changed index can go unnoticed and a stale value is returned."
 },
 "C40": {
  "note": "Refinement of wrapped spectra, with parameters shared by reference, to independent values over all histories of construction, copying, setting and destruction (C40_history_partial), band edges (C40_partition), derivatives (C40_derivative, C40_fixed), setParam (C40_set_param_partial). Partial because assignment is covered only between objects with the same added parameters: it does not copy Emin and Emax (C40_assign_refuted) and leaves an unusable object if the parameters differ (C40_assign_other_refuted); and setParam refuses a valid parameter whose value is outside the old bounds (C40_set_param_refuted). optimizers::Parameter is modelled from its documented behaviour."
 },
 "C59": {
  "note": "acceptInterval, load and the inclination bins in exact arithmetic; GTIs must be ordered and disjoint (refuted otherwise), an empty GTI list means no restriction, an empty spacecraft table is undefined. What fill() does with the livetime is not modelled."
 },
 "C102": {
  "note": "Key/value, map and dense round trips are proved. The ranged exports and a non-empty destination are refuted: fill_vect(vect,first,last) writes past the end when an entry is stored at index last, ranged fill_key_and_value indexes with idx-first, fill_vect keeps old destination content."
 },
 "C02": {
  "note": "Proved in full by the theorems listed. The parts of this subject that the code violates or that are proved only in part are property C102."
 },
 "C104": {
  "note": "Kahan totals are proved for every arithmetic in which subtraction undoes addition; the logarithmically binned Accumulator is proved over the reals for histories that do not start with a zero (such histories read uninitialised members: refuted)."
 },
 "C04": {
  "note": "Proved in full by the theorems listed. The parts of this subject that the code violates or that are proved only in part are property C104."
 },
 "C106": {
  "note": "Slices are proved for every shape. sumRange is proved over the last axis from bin 0 and refuted for any other first bin, for other axes, and for one-dimensional histograms."
 },
 "C06": {
  "note": "Proved in full by the theorems listed. The parts of this subject that the code violates or that are proved only in part are property C106."
 },
 "C116": {
  "note": "Proved when no setter was refused half-way; the full statement is refuted: after an out-of-bounds value (assumed behaviour of the external Parameter::setValue) or an unknown parameter name the vector is stale, and a later setFreeParamValues can read past the end."
 },
 "C16": {
  "note": "Proved in full by the theorems listed. The parts of this subject that the code violates or that are proved only in part are property C116."
 },
 "C119": {
  "note": "Joint gradient proved entry by entry for CompositeLikelihood2; for SummedLikelihood only without tied groups (group derivatives and pre-filled outputs refuted)."
 },
 "C19": {
  "note": "Proved in full by the theorems listed. The parts of this subject that the code violates or that are proved only in part are property C119."
 },
 "C128": {
  "note": "Round trip, distinctness, idempotence, stability and throwing proved for fewer than 2^31 columns (facilities::Util::atoi is taken to be C atoi). Refuted: strings such as the root alone or a key with trailing characters are accepted as keys."
 },
 "C28": {
  "note": "Proved in full by the theorems listed. The parts of this subject that the code violates or that are proved only in part are property C128."
 },
 "C130": {
  "note": "Folding, conservation, size check, transpose and exact continuation of power laws proved for all matrices. Linearity and non-negativity hold only without extra bins (or for non-negative continued counts): C30_linear_refuted and C30_negative_refuted give counterexamples with extra bins; one measured bin with extra bins reads out of range (C30_single_bin_refuted)."
 },
 "C30": {
  "note": "Proved in full by the theorems listed. The parts of this subject that the code violates or that are proved only in part are property C130."
 },
 "C133": {
  "note": "Full for PowerLaw2 (including Index = -1), LogParabola, ScaleFactor, FileFunction. Partial: LogNormal and ExpCutoffSEDPeak need a non-zero prefactor (the code divides by it; refuted), EblAtten needs a unit scale for tau_norm (refuted), PiecewisePowerLaw needs unit scales for IndexL/IndexH (refuted). Reals, no rounding; external interpolation and optical depth are arbitrary functions."
 },
 "C33": {
  "note": "Proved in full by the theorems listed. The parts of this subject that the code violates or that are proved only in part are property C133."
 },
 "C135": {
  "note": "Partial: BPL2 Index1/Index2 zero on the un-normalised side (refuted), SmoothDouble Index2 lacks the scale (refuted), Band Alpha wrong for alpha <= beta (refuted), MultipleBrokenPowerLaw lacks some scales (refuted), zero prefactor (refuted)."
 },
 "C35": {
  "note": "Proved in full by the theorems listed. The parts of this subject that the code violates or that are proved only in part are property C135."
 },
 "C136": {
  "note": "Integral parameter: full for PowerLaw2 (all indices) and BrokenPowerLaw2 (all positions of the break), for BrokenPowerLaw3 when the limits are on one side of the break. integral(): right for PowerLaw2 unless Index = -1 (0/0, refuted); BrokenPowerLaw2/3 return the integral divided by the break energy (refuted), and use the wrong index when the range starts at the break (refuted)."
 },
 "C36": {
  "note": "Proved in full by the theorems listed. The parts of this subject that the code violates or that are proved only in part are property C136."
 },
 "C137": {
  "note": "Full for ExpCutoff, Band, BrokenPowerLaw2/3, MultipleBrokenPowerLaw, PiecewisePowerLaw. BPLExpCutoff is 0 exactly at BreakValue and Eabs (refuted for every non-zero prefactor; continuous elsewhere, _partial); PLSuperExpCutoff4 jumps where the Taylor polynomial takes over (refuted)."
 },
 "C37": {
  "note": "Proved in full by the theorems listed. The parts of this subject that the code violates or that are proved only in part are property C137."
 },
 "C138": {
  "note": "Values and derivative(x) of GaussianError are right for all parameters (C38_GaussianError_value, C38_derivative). LogGaussian's normalisation is fixed at construction, so its value is right until the parameters change (C38_LogGaussian_value_partial, C38_LogGaussian_value) and wrong afterwards (C38_LogGaussian_value_refuted). Parameter derivatives hold for Norm (the _derivatives_partial theorems) and are wrong for Mean and Sigma and for scales other than 1 (C38_mean_refuted, C38_sigma_refuted, C38_scale_refuted)."
 },
 "C38": {
  "note": "Proved in full by the theorems listed. The parts of this subject that the code violates or that are proved only in part are property C138."
 },
 "C139": {
  "note": "Npred, Npred over a range, pixelCounts, the flux integrals, the one-source likelihood: derivative theorems for every spectrum whose derivByParam is its derivative. Missing: the Prefactor shortcut is wrong for a spectrum not proportional to Prefactor (C39_npred_refuted); Pixel::getFreeDerivs uses a different quadrature from modelCounts, a wrong direction for Prefactor, and adds to a non-empty vector (three refuted theorems)."
 },
 "C39": {
  "note": "Proved in full by the theorems listed. The parts of this subject that the code violates or that are proved only in part are property C139."
 },
 "C141": {
  "note": "Ownership of source maps over all histories of loading, rebuilding, replacing, taking out and destroying caches (C41_history_partial, C41_same_map, C41_errors). The history theorem excludes two kinds of call, shown to be wrong by C41_null_refuted (a point source without computed point sources gives a null map that is then used) and C41_rebuild_refuted (a rebuild that throws leaves a freed map in the cache)."
 },
 "C41": {
  "note": "Proved in full by the theorems listed. The parts of this subject that the code violates or that are proved only in part are property C141."
 },
 "C142": {
  "note": "Every map an object of the usual kind uses is live, the library's for its name (C42_history_partial), the same until deleted (C42_same_map), and read from the file and extension last given to the object (C42_right_file_partial, C42_object_map_partial: extension names without a colon). Calls excluded from the histories are shown to be wrong: copies of map objects are not told of deletions (C42_copy_refuted), deletion by address tells nobody (C42_delete_pointer_refuted), a rebinned map is lost at the next deletion of any map (C42_rebin_refuted), a failed read leaves the object watching the wrong name (C42_failed_read_refuted), and :: in names makes keys ambiguous (C42_names_refuted)."
 },
 "C42": {
  "note": "Proved in full by the theorems listed. The parts of this subject that the code violates or that are proved only in part are property C142."
 },
 "C146": {
  "note": "Partial: unweighted totals, masks and add/subtract hold for all maps; weighted totals hold for dense maps without a reference bin; refuted with a reference bin, for sparse maps, and for the undispersed totals of the new dispersion method."
 },
 "C46": {
  "note": "Proved in full by the theorems listed. The parts of this subject that the code violates or that are proved only in part are property C146."
 },
 "C155": {
  "note": "Normalisations, slopes, curvature and peak of eight spectra. The limits of SmoothBrokenPowerLaw hold if beta has the sign of Index1 - Index2 (C55_SmoothBrokenPowerLaw_limits_partial); with a positive beta and Index1 < Index2 the two indices are exchanged (C55_SmoothBrokenPowerLaw_limits_refuted)."
 },
 "C55": {
  "note": "Proved in full by the theorems listed. The parts of this subject that the code violates or that are proved only in part are property C155."
 },
 "C156": {
  "note": "Proved for a rebuilt map and for all histories in which sources of one name stay where they are (C56_history_partial). Refuted for a source that replaces a deleted one of the same name at another place (C56_refuted): the cache keeps the map of the deleted source."
 },
 "C56": {
  "note": "Proved in full by the theorems listed. The parts of this subject that the code violates or that are proved only in part are property C156."
 },
 "C157": {
  "note": "Value, derivatives and independence for all histories (C57_value, C57_derivative, with C40_history_partial); the complement form is bounded by 0 and the spectrum if the bounds are right (C57_complement_partial). Refuted: one right bound is enough for the form to be accepted (C57_bounds_refuted), a refused form is set nevertheless (C57_refused_refuted), the constructor always refuses it (C57_constructor_refuted)."
 },
 "C57": {
  "note": "Proved in full by the theorems listed. The parts of this subject that the code violates or that are proved only in part are property C157."
 },
 "C158": {
  "note": "Whole-grid and partial ranges proved on log-uniform grids (those RoiCuts makes). False on other grids, which computeExposure accepts (C58_grid_refuted), and for ranges outside the grid (UB below, negative counts above)."
 },
 "C58": {
  "note": "Proved in full by the theorems listed. The parts of this subject that the code violates or that are proved only in part are property C158."
 },
 "C160": {
  "note": "ScData and the exposure sum; the effective area, efficiency and inclination are arbitrary functions. Refuted: order of the first two rows, times just before the first interval, last interval dropped when the cuts end after the data."
 },
 "C60": {
  "note": "Proved in full by the theorems listed. The parts of this subject that the code violates or that are proved only in part are property C160."
 },
 "C161": {
  "note": "Selections by value; the library's GTI intersection and supercedes are arbitrary functions. Refuted: GTIs ignored when there is a time range, second read keeps the first GTIs, latest time with several GTI cuts, order dependence of the strict check, uninitialised zenith limit."
 },
 "C61": {
  "note": "Proved in full by the theorems listed. The parts of this subject that the code violates or that are proved only in part are property C161."
 },
 "C162": {
  "note": "Proved for common sources with the same free shape parameters, any number of components and sources, with each component's value and gradient taken as given functions (their own correctness is C19, C47, C51). Refuted: a shape parameter fixed in one component is still set there but its derivative is left out; free only in a later component it is missing from the vector and the derivatives divide by zero; binned components keep using the model computed before the values were set; the full parameter list loses every parameter called like the common normalisation except one."
 },
 "C62": {
  "note": "Proved in full by the theorems listed. The parts of this subject that the code violates or that are proved only in part are property C162."
 },
 "C163": {
  "note": "Exact on sources whose spectral and spatial types are unchanged; false otherwise. Refuted: added/removed accessors test each other's bits (and removal exchanges free and fixed), compare_model misses removed sources, a type change with moved parameters sets normalisation bits, a template source removed or of another type calls for no action, latching twice in the same object reports a spatial type change, a prior's type is not compared."
 },
 "C63": {
  "note": "Proved in full by the theorems listed. The parts of this subject that the code violates or that are proved only in part are property C163."
 },
 "C164": {
  "note": "partial: the merged grid and vectors are complete, in order and laid out alike (for grids whose edges in one component are further apart than the tolerance), and bins sit between the edges of their layer when no component splits bins of another; refuted: overlapping bins are put in a layer that ends before they do, and set_klims gives every component an empty range (both limits are looked up with kmin)"
 },
 "C64": {
  "note": "Proved in full by the theorems listed. The parts of this subject that the code violates or that are proved only in part are property C164."
 },
 "C165": {
  "note": "partial: proved for counts proportional to the normalisation, without priors, weights and bin reduction: building, updating (with positive normalisations where a template is remade), fits and test-source operations keep the cache faithful, and refactoring at the current parameters changes the total by exactly the template sources fixed away from their reference value. Refuted: a rebuild reads reference values out of range whatever the new model, a zero normalisation makes building undefined, a template remade at zero normalisation is lost, updates of fixed sources or templates drop the test source, fixing everything at the current values changes the prediction"
 },
 "C65": {
  "note": "Proved in full by the theorems listed. The parts of this subject that the code violates or that are proved only in part are property C165."
 },
 "C166": {
  "note": "partial: proved for all tables, energies and angles over the reals; energies above the grid are answered as the last energy although those below are refused (C66_high_refuted), and without exposure the integral jumps from zero to one so that no fraction has a containment angle (C66_blind_refuted). The root finder and the bilinear interpolation of st_facilities are external"
 },
 "C66": {
  "note": "Proved in full by the theorems listed. The parts of this subject that the code violates or that are proved only in part are property C166."
 },
 "C167": {
  "note": "partial: the table, its look-up inside the map and the refusal off the map are proved for all projections and sizes. The code truncates pixel coordinates, so that a direction in the lower half of a pixel is answered with its neighbour (C67_nearest_pixel_refuted) and the first pixel takes a wider strip (C67_edge_refuted); a single look-up past the end of a row reads the next row (C67_wrap_refuted); the file drops the rotation and the reference pixel (C67_rotation_refuted, C67_reference_refuted), gives the wrong number of planes when edge bins were added (C67_planes_refuted) and cannot be written again (C67_rewrite_refuted); the first entry within tolerance is used, not the nearest (C67_nearest_energy_refuted). Exposure integrals and projections are external"
 },
 "C67": {
  "note": "Proved in full by the theorems listed. The parts of this subject that the code violates or that are proved only in part are property C167."
 },
 "C168": {
  "note": "partial: proved for all maps and coordinates. A map all around the sky answers the centre of its last column with the first one when not interpolating (C68_last_column_refuted), extrapolates or throws for negative pixel coordinates (C68_negative_refuted), and is not recognised when its column width is negative and falls the least bit short of the circle (C68_full_circle_refuted); one index too many is let through (C68_index_refuted); maps of one plane have no value at any other energy (C68_single_refuted); integrals fail next to a zero (C68_integral_refuted); the product with an exposure keeps energies it has no planes for (C68_product_refuted). The projection and the convolution with the point spread function are external"
 },
 "C68": {
  "note": "Proved in full by the theorems listed. The parts of this subject that the code violates or that are proved only in part are property C168."
 },
 "C169": {
  "note": "partial: proved for all sizes and factors. Maps made from counts keep their solid angles by row and read them by column: oblong maps read beyond the end (C69_oblong_refuted), square ones are weighed with mirrored solid angles (C69_mirrored_refuted). Pixels off the sky give intensities and means that are not numbers (C69_roundtrip_refuted, C69_rebin_hole_refuted); a rebinned all-sky map goes on wrapping though its padded columns overlap (C69_periodic_refuted); the closest pixel is sought only at the border (C69_inside_refuted); the pixel at the pole uses the wrong left edge (C69_pole_refuted); a factor of zero divides by zero (C69_factor_zero_refuted). The projection is external"
 },
 "C69": {
  "note": "Proved in full by the theorems listed. The parts of this subject that the code violates or that are proved only in part are property C169."
 },
 "C170": {
  "note": "Proved for tables with rising abscissae and at least two points, for all histories of commands, and for cones that do not reach around the sky. Refuted: a repeated abscissa at either end of an accepted table has no value, a falling profile is negative beyond its table, one line is accepted and throws, the integral leaves out what lies before the table, parameters changed after the first evaluation are ignored, assignment may keep the old centre, getCenter and mapRefDir before an evaluation follow a null pointer, the normalisation has a derivative but no effect, a moved shape moves back when its size is set, parameters re-read as a vector have no effect, getDiffRespLimits has no return statement and its cones wrap around the sky, the radius is kept when the shape grows, and the integral of a disk is taken to be one on the sphere."
 },
 "C70": {
  "note": "Proved in full by the theorems listed. The parts of this subject that the code violates or that are proved only in part are property C170."
 },
 "move": {
  "C61_accept_value": "C161",
  "C60_exposure_late": "C160",
  "C60_no_data": "C160"
 },
 "C71": {
  "note": "Proved in full by the theorems listed. The position angles of special directions and the limits for events outside a map are property C171."
 },
 "C171": {
  "note": "Partial: position angles are recovered to 1e-8 for directions that are neither opposite to the event nor 90 degrees due north or south of it, where the code divides zero by zero; the range of position angles holds all corners when these differ by 180 degrees at most, and leaves out every corner between the smallest and the largest otherwise."
 },
 "C72": {
  "note": "Theorems about makePointSourceMap_wcs, makePointSourceMap_healpix, the three PSF estimators, the offset map and its interpolation, and fillMapWithPSF_refDir. SkyDir::difference, projections, HEALPix geometry and MeanPsf are arbitrary functions."
 },
 "C172": {
  "note": "Violated: see the refuted theorems."
 },
 "C73": {
  "note": "Theorems about the bytes of the file. Printing and reading of numbers, the function factory and readability of files are arbitrary functions (reading what was printed gives the rounded number; rounding keeps the order). extractDomData, setParams and setBounds of package optimizers are modelled as described in the comments."
 },
 "C173": {
  "note": "Violated: see the refuted theorems."
 },
 "C74": {
  "note": "SourceMap vectors over arbitrary arithmetic; sums, undoing and shares over the reals. FITS files are an extension name -> contents map."
 },
 "C174": {
  "note": "Refuted: sparse maps without spectrum always throw; the first pixel after the range is written outside the vector; stale spectra make add and subtract disagree; reused vectors accumulate; the single-source call discards maps that should be kept; uncomputed point sources use a null pointer; counts spectra outside the fit range divide by zero; with 500 or more sources the maps are not found again; the empty file name overwrites the file."
 },
 "C75": {
  "note": "The optimizer is arbitrary: it can only leave values in the free parameters. Flux densities and predicted counts are arbitrary functions of the values. Real arithmetic."
 },
 "C175": {
  "note": "Refuted: a source with at most one per cent of every event is fitted away; a flux density below 1e-20 counts as if its logarithm were zero; the fit loops for ever when the statistics add up to zero and for 2000 or more free parameters (the tolerance is negative); the tolerance for 10 parameters has probability above 0.72; the parameter list and the predicted counts of the object stay those from before the fit."
 },
 "C76": {
  "note": "Proved for all maps and energies, over the reals; the projection, the exposure of one direction and the value of the source's map are arbitrary functions."
 },
 "C176": {
  "note": "Refuted: below or above its energies a positive exposure map gives negative exposures; one energy is undefined behaviour; a total that is zero at one energy only makes the map-based integral throw and leaves the source with fewer exposures than energies; the two ways differ between the energies; the map-based one ignores the normalisation; a one-plane HEALPix template reads a plane that does not exist; with an odd number of pixels the map is half a pixel off; a map of one energy or one column divides by zero."
 },
 "C77": {
  "note": "Proved for all maps, over the reals; the projection, the convolution and the solid angle of four directions are arbitrary functions."
 },
 "C177": {
  "note": "Refuted: fewer than 20 cells is an integer division by zero; maps of unequal size are read out of bounds; negative contents give weights that are not positive; the map of a range of energies sums the wrong planes and has no third axis; CDELT3 is the range over n - 1; a HEALPix map counts nothing when its first energy exceeds the number of bins, its copy has an unset radius, a partial-sky effective background uses the wrong pixels, and writing it as a weights map deletes the table twice."
 },
 "C78": {
  "note": "Proved for all models; densities over the reals. Maps are what createSourceMap computes, an arbitrary function; the counts kept for fixed sources are not part of this model."
 },
 "C178": {
  "note": "Refuted: all point members use the response of the first; the derivative by the composite's own parameter is that of the members, or an exception; the flux ignores the members; the exposure is never computed; a source whose map is not loaded is lost in merging; the map of a split composite is given to the next composite of that name; a user's image of a fixed source is replaced; a name added again meanwhile loses the members."
 },
 "C79": {
  "note": "Proved for all inputs over the reals; what a source predicts between two energies is an arbitrary function, additive where the claim is about sums."
 },
 "C179": {
  "note": "Refuted: no bounds fill the memory; one bound gives no bin and no error; reversed bounds count no event; writing before the bounds are set removes the old file and throws; the spectrum of a source outside of the energy limits divides by zero."
 },
 "C80": {
  "note": "Proved for all inputs over the reals; the likelihood is an arbitrary function and the optimizer one that finds its maximum over the allowed values."
 },
 "C180": {
  "note": "Refuted: the normalisation is left at the last value of the scan and free; the range uses the first uncertainty; an upper bound below 2.5 makes every scan fail; after a spectrum the limits are one too large and the likelihood reads beyond its counts; limits of sums are empty ranges; an unknown source is undefined behaviour; a best value above 2.5 without uncertainty gives one value only."
 },
 "C81": {
  "note": "Proved over the reals, with the HEALPix library (pixel of a direction, neighbours and weights) as arbitrary functions. The convolution itself is not modelled here."
 },
 "C181": {
  "note": "Refuted: every column becomes a plane; one column gets the energy 100; one plane at another energy, and the index equal to the number of planes, read past the end; tiny negative values are returned at the energy of a plane; convolve returns one plane with all the energies; degrees are compared with radians; rebin uses nside as the order of the map, always fails for a factor of two and otherwise never gives nside / factor."
 },
 "C82": {
  "note": "Proved over the reals. Inverting a matrix and the Newton fit are arbitrary functions (the inverse is assumed to be one)."
 },
 "C182": {
  "note": "Refuted: the central values are not reduced with the matrix; the wrong pointer is tested; the part of the parameters that is kept has the size of all sources; the factor two of the parabola is missing; for variances below 1e-10 nothing is set; only the local prior is used in scans; the reduced model is always read; priors of sources with reference below 1e-15 are dropped."
 },
 "C83": {
  "note": "FITS tables are modelled as named columns of rows; writing beyond the last row adds rows. Numbers are not rounded on writing."
 },
 "C183": {
  "note": "Refuted: planes are taken from kmin on although a partial map starts there; columns and rows of the old map stay; planes above the counts map's energies raise an exception; unreadable rows become pixel zero; gaps are lost and an empty table is undefined; the number of added energies is not read; the arguments of getParam are swapped; names are cut at 32 characters; the table is deleted twice."
 },
 "C84": {
  "note": "When two cuts are equal is decided by the external library and left arbitrary (an equivalence where files are compared in chains)."
 },
 "C184": {
  "note": "Refuted: only a warning, uninitialised numbers for different numbers of interval lists, zero for additional intervals; exception without energy cuts; holes are accepted and corners outside of the projection refused; the file's event types win; the counts map parameter is read in unbinned analyses; none is opened as a file; a table is read out of range."
 },
 "C85": {
  "note": "Merged good time intervals, dates and the densities themselves are not modelled here."
 },
 "C185": {
  "note": "Refuted: the copy of the first file is made before the checks, and the first table is written before the second is checked; overlapping times are not looked for; rows are paired with accepted events by position; unknown names get 0; columns are compared in lower case; 0/0; events are typed by the file's selection, response functions loaded by the parameter."
 }
}
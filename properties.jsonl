{"id": "C01", "title": "Sparse vector reads like a dense vector", "statement": "After any sequence of constructions, push_back, fill_from_vect, growing resize, clear, clear_data, assignment and swap calls on any number of SparseVector objects, operator[](k) returns for every k exactly the value a plain dense vector subjected to the same calls holds at k (the null value where nothing was stored), and size() is the dense length; in addition the stored keys stay strictly increasing and below size(). (Shrinking resize is C43.)", "quantifier": "every element type, null value, sequence of operations of any length, and index", "why_tests_cant": "the claim is about every history of calls; a test samples a few histories of a few elements", "anchors": ["Likelihood/SparseVector.h: SparseVector::operator[], push_back, resize, fill_from_vect, clear, clear_data, swap, find"]}
{"id": "C02", "title": "Sparse vector import/export round trips", "statement": "Exporting a SparseVector to (keys, values), to a map or to a dense vector and importing the result into a vector of the same size gives a SparseVector with the same reads; the ranged export to a map holds exactly the stored entries of [first,last).", "quantifier": "every sparse vector, every destination buffer and every range first <= last <= size()", "why_tests_cant": "round trips must hold for all contents and all pre-existing destination buffers; out-of-bounds writes at a range boundary are silent in tests", "anchors": ["Likelihood/SparseVector.h: fill_vect, fill_map, fill_key_and_value, fill_from_map, fill_from_key_and_value"]}
{"id": "C03", "title": "Adding a sparse vector to a dense one and subtracting it again is the identity", "statement": "add_to_vect adds, element by element, exactly what operator[] reads (for null value 0) and nothing else changes; subtract_from_vect afterwards restores the buffer in exact arithmetic.", "quantifier": "every sparse vector with null 0 and every destination at least as long as size()", "why_tests_cant": "quantifies over all buffers and all sparsity patterns", "anchors": ["Likelihood/SparseVector.h: add_to_vect, subtract_from_vect"]}
{"id": "C04", "title": "The Kahan accumulator conserves the sum", "statement": "For any list of addends, Kahan_Accumulator::total() returns the sum of everything added since construction or the previous total() in exact arithmetic, and leaves the accumulator empty.", "quantifier": "every sequence of add and total calls with any addends", "why_tests_cant": "the sum over internal bins is only correct if no addend is lost or double counted for any magnitude ordering; tests sample a few magnitudes", "anchors": ["Likelihood/Accumulator.h: Kahan_Accumulator::add, total", "src/Accumulator.cxx: Accumulator::add, total, indx"]}
{"id": "C05", "title": "N-dimensional histogram: bins are addressed injectively and fills conserve weight", "statement": "binIndex maps distinct in-range coordinate tuples to distinct in-range cells and every in-range coordinate to exactly the half open bin containing it; a sequence of fillBin calls leaves every cell equal to the sum of the weights filled into it, and the total content equal to the sum of all weights.", "quantifier": "every number of axes, every increasing edge list per axis, every sequence of fills", "why_tests_cant": "quantifies over all dimensions, edges and fill histories", "anchors": ["src/HistND.cxx: HistND, binIndex, fillBin"]}
{"id": "C06", "title": "Histogram slices", "statement": "getSlice(idim, ivar) after setSlice(idim, ivar, data) returns data and setSlice changes no cell outside that slice; getSlice returns exactly the cells of the slice.", "quantifier": "every shape, axis, slice coordinates, range and data of the matching length", "why_tests_cant": "stride arithmetic must be right for every shape and axis, not only square ones", "anchors": ["src/HistND.cxx: setSlice, getSlice, sumRange"]}
{"id": "C07", "title": "Trapezoidal quadrature is the sum of trapezoids", "statement": "For tabulated points TrapQuad::integral is the sum over adjacent pairs of the trapezoid areas: it is exact for affine integrands, linear in the ordinates, additive under splitting the abscissae at a node, and non-negative for non-negative integrands on increasing abscissae; with the log option the value is the exact integral of the integrand obtained by interpolating x*y(x) linearly in log x.", "quantifier": "every list of at least two abscissae and every list of ordinates", "why_tests_cant": "algebraic laws over unbounded lists and all reals", "anchors": ["src/TrapQuad.cxx: integral, compute_integral, compute_log_integral"]}
{"id": "C08", "title": "Vector helpers are the element-wise operations, shape checked", "statement": "vectorAdd, vectorSubtract, vectorMultiply, multiplyByScalar, innerProduct and sumVector compute the element-wise/sum mathematical operation on equal length inputs and report an error, leaving the output unchanged, on unequal lengths; subtract undoes add; innerProduct is symmetric and bilinear.", "quantifier": "all vector lengths and contents", "why_tests_cant": "algebraic laws for all lengths and values", "anchors": ["src/FitUtils.cxx: vectorAdd, vectorSubtract, vectorMultiply, multiplyByScalar, innerProduct, sumVector"]}
{"id": "C09", "title": "The energy grid extension keeps the analysis grid", "statement": "expand_energies(energies, n) yields the original energies shifted by n positions, with n extra points on either side continuing the logarithmic spacing, so a strictly increasing positive input gives a strictly increasing positive output of length size + 2n.", "quantifier": "every grid with at least two energies and every n", "why_tests_cant": "for all sizes; index shift errors only show at the ends", "anchors": ["src/FitUtils.cxx: expand_energies, log_energy_ratios"]}
{"id": "C10", "title": "Sparse and dense Poisson log-likelihoods agree", "statement": "The log-likelihood computed from the compressed representation (non-zero bins kept individually, empty bins of a layer lumped into one place-holder bin) equals the log-likelihood of the full data and model; in the weighted case the lumped weight reproduces the weighted model sum.", "quantifier": "every data vector, model vector, weight vector, number of layers and number of pixels per layer", "why_tests_cant": "an off-by-one at a layer boundary silently drops bins; must hold for every pattern of empty bins", "anchors": ["src/FitUtils.cxx: extractNonZeroBins, sparsifyModel, sparsifyWeights, logLikePoisson"]}
{"id": "C11", "title": "Poisson log-likelihood rejects exactly the impossible models", "statement": "logLikePoisson throws exactly when the lengths differ, some model bin is negative, or a bin with data (content above 1e-9, the documented threshold for evaluating the logarithm) has a non-positive model; otherwise it returns the sum over bins of n log m - m; it is invariant under permutation of the bins and additive under concatenation.", "quantifier": "all data and model vectors", "why_tests_cant": "all lengths and contents", "anchors": ["src/FitUtils.cxx: logLikePoisson"]}
{"id": "C12", "title": "Refactoring templates into the fixed model preserves the total model", "statement": "refactorModels moves templates between free and fixed such that fixed_out + sum scale_out*template_out equals fixed_in + sum scale_in*template_in in every bin, and the free templates are exactly those flagged free, in order.", "quantifier": "every number of templates, every flag pattern, every scale and every number of bins", "why_tests_cant": "conservation for every combination of flags", "anchors": ["src/FitUtils.cxx: refactorModels"]}
{"id": "C13", "title": "Gradient and Hessian used by the normalisation fitter are the derivatives of its log-likelihood", "statement": "For every normalisation vector with positive model, the gradient returned by getGradientAndHessian is the vector of partial derivatives of the log-likelihood returned by getLogLikelihood (with sign convention), and the Hessian is the matrix of second partial derivatives and is symmetric.", "quantifier": "every number of templates, bins, data, fixed model, weights and normalisation vector", "why_tests_cant": "calculus identity over the reals for unbounded dimension", "anchors": ["src/FitUtils.cxx: getLogLikelihood, getGradientAndHessian, sumModel"]}
{"id": "C14", "title": "The normalisation fitter never returns a worse likelihood and reports the likelihood of the point it returns", "statement": "On every successful return of the Newton fit the reported log-likelihood is at least the initial one and is the log-likelihood of the returned normalisations.", "quantifier": "every input model and every behaviour of the linear solver (an arbitrary function)", "why_tests_cant": "the solver step and number of iterations are unbounded; tests follow one trajectory", "anchors": ["src/FitUtils.cxx: fitNorms_newton"]}
{"id": "C15", "title": "Source container behaves like a map from names to sources", "statement": "After any sequence of addSource and deleteSource calls the model contains exactly the sources added and not yet deleted; adding a duplicate name or deleting an unknown one throws and changes nothing; no source object is lost or owned twice.", "quantifier": "every sequence of operations and every set of names", "why_tests_cant": "histories are unbounded; exception paths are rarely tested", "anchors": ["src/SourceModel.cxx: addSource, deleteSource, deleteAllSources, getSource"]}
{"id": "C16", "title": "Setting and reading the parameter vector", "statement": "In a model whose parameter vector is in step with its sources, setting all (or all free) values from a vector and reading them back returns the same vector, leaves the fixed parameters, names, scales and free flags unchanged, and a wrong length throws and changes nothing.", "quantifier": "every set of sources, every free pattern, every value vector", "why_tests_cant": "mis-ordering is only visible for particular free patterns and source names", "anchors": ["src/SourceModel.cxx: syncParams, setParamValues_, setFreeParamValues_, setParams_, setParam"]}
{"id": "C17", "title": "Moving sources between models conserves them", "statement": "give_source, steal_source, mergeSources and splitCompositeSource move sources: the multiset of sources over all models involved is the same before and after, whether or not the call throws.", "quantifier": "every pair of models and every call, including the throwing ones", "why_tests_cant": "exception paths in the middle of a move are hard to trigger for every state", "anchors": ["src/SourceModel.cxx: give_source, steal_source, mergeSources, splitCompositeSource", "src/CompositeSource.cxx: addSource, deleteSource"]}
{"id": "C18", "title": "Tied parameters always hold one common value", "statement": "In a joint likelihood with tied parameter groups, after any sequence of setFreeParamValues calls all members of a group that was last set through the group hold the same value, untied free parameters hold the supplied values in order, and getFreeParams/fetchParamValues return what was set.", "quantifier": "every number of components, every partition into tied groups, every free pattern and every call sequence", "why_tests_cant": "index bookkeeping over arbitrary groupings", "anchors": ["src/SummedLikelihood.cxx: getFreeParams, setFreeParamValues, fetchParamValues, tieParameters", "src/Composite2.cxx: getFreeParams, setFreeParamValues", "src/TiedParameter.cxx"]}
{"id": "C19", "title": "Gradient of a composite likelihood", "statement": "getFreeDerivs of a CompositeLikelihood2 lists derivatives in the same order and number as getFreeParams; an untied entry is its component's derivative and a tied entry is the sum of the members' derivatives.", "quantifier": "every number of components, tied groups and free patterns", "why_tests_cant": "a wrong slot or a dropped member only shows for particular groupings", "anchors": ["src/Composite2.cxx: getFreeDerivs", "src/SummedLikelihood.cxx: getFreeDerivs"]}
{"id": "C20", "title": "Index lookup agrees with the parameter order", "statement": "findIndex(like, i) of a joint likelihood returns the position of that parameter in getFreeParams when it is free or tied in a free group, and a negative value otherwise.", "quantifier": "every component, parameter index, grouping and free pattern", "why_tests_cant": "depends on free flags of all groups before the searched one", "anchors": ["src/Composite2.cxx: findIndex", "src/SummedLikelihood.cxx: findIndex"]}
{"id": "C21", "title": "Filled-pixel index is complete, sorted and partitioned by energy", "statement": "After constructing or replacing counts or weights, walking the filled-pixel list of every energy plane visits exactly the pixels of that plane with positive (weighted) counts, each once in increasing order.", "quantifier": "every number of planes and pixels and every counts and weights content", "why_tests_cant": "must hold for every pattern of empty pixels, planes without counts and one-pixel maps", "anchors": ["src/BinnedCountsCache.cxx: identifyFilledPixels, fillWeightedCounts, setCountsMap, setWeightsMap"]}
{"id": "C22", "title": "Counts spectrum is the per-plane total of the counts map", "statement": "countsSpectrum() entry k equals the sum of the counts in energy plane k (weighted: of counts times positive weight); the entries sum to the map total; the cached spectrum is always that of the current map after any sequence of setCountsMap and setWeightsMap.", "quantifier": "every map shape, content, weights and call sequence", "why_tests_cant": "stale caches appear only after particular call sequences", "anchors": ["src/BinnedCountsCache.cxx: computeCountsSpectrum_wcs, computeCountsSpectrum_healpix, setCountsMap, setWeightsMap"]}
{"id": "C23", "title": "Cached fixed-source model equals the sum over fixed sources", "statement": "In the binned likelihood, after any sequence of adding and removing fixed sources and changing parameters followed by a rebuild where the code requests one, the cached summed model of the fixed sources equals the sum of the individual fixed source models, and the likelihood value equals that recomputed from scratch.", "quantifier": "every history of operations", "why_tests_cant": "cache staleness is a property of histories", "anchors": ["src/BinnedLikelihood.cxx: value, addSource, deleteSource, syncSrcParams, buildFixedModelWts, fixedModelUpdated, addFixedSource, deleteFixedSource, computeModelMap"]}
{"id": "C24", "title": "Adding and removing a source's counts cancels", "statement": "Adding a source's counts to the model-counts buffer puts the predicted counts of the source (trapezoid of E*S*M in log energy, folded with the energy response in use) into every filled pixel of every plane and touches nothing else; the subtracting call for the same source and parameters restores the buffer.", "quantifier": "every source map (dense or sparse), spectrum, dispersion setting and filled-pixel pattern", "why_tests_cant": "quantifies over all buffers and patterns", "anchors": ["src/FitUtils.cxx: addSourceCounts, model_counts_contribution"]}
{"id": "C25", "title": "Unbinned per-event model sum equals the sum of the source contributions", "statement": "After any sequence of updateModelSum, deleteSource and resetModelSum calls on an event, its model sum equals the sum over the sources currently registered of their latest contribution.", "quantifier": "every sequence of calls and source names", "why_tests_cant": "histories, including re-adding and deleting unknown sources", "anchors": ["src/Event.cxx: updateModelSum, deleteSource, resetModelSum"]}
{"id": "C26", "title": "Unbinned cached predicted counts stay equal to the recomputed ones", "statement": "After any sequence of parameter changes, source additions and deletions and syncParams calls, the predicted counts used in the log-likelihood value equal those recomputed from the sources.", "quantifier": "every history of operations", "why_tests_cant": "staleness is a history property", "anchors": ["src/LogLike.cxx: value, syncParams, syncSrcParams, addSource, deleteSource, update_npreds"]}
{"id": "C27", "title": "Every event in range is counted in exactly one energy bin", "statement": "EventContainer::nobs returns, per energy bin, the number of events whose energy lies in it (closed at the upper end of the last bin); the entries add up to the number of events inside the full range and events outside are ignored; no out-of-range access happens.", "quantifier": "every list of events and every strictly increasing list of at least two energy bounds", "why_tests_cant": "boundary energies are measure-zero for random tests", "anchors": ["src/EventContainer.cxx: nobs"]}
{"id": "C28", "title": "Column names and keys are in one-to-one correspondence", "statement": "For every registered column name, looking up the key of the name and then the column of that key returns the name; keys are distinct for distinct names; registering is idempotent and never changes the key of another name; an unknown name or an index out of range throws.", "quantifier": "every sequence of registrations and every root name", "why_tests_cant": "index formatting and parsing must be inverse for all indices, not just single digits", "anchors": ["src/DiffRespNames.cxx: addColumn, key, operator[]"]}
{"id": "C29", "title": "Response cache never serves a stale or foreign entry", "statement": "EventSourceCache::getCachedValue(i, src) returns the last value stored for (i, src) since the last clear/delete of that source and the default otherwise, always with one slot per event, and throws for an event index out of range.", "quantifier": "every sequence of store, read, deleteSource and clearAndResize calls", "why_tests_cant": "history property over a two level map", "anchors": ["Likelihood/EventSourceCache.h: EventSourceCache::getCachedValue, clearAndResize, deleteSource"]}
{"id": "C30", "title": "Energy dispersion convolution folds the continued counts and conserves them", "statement": "Drm::convolve maps true counts, continued at both ends by the power laws of the outermost bins, to measured counts by the response matrix; counts that follow a power law are continued by it; when every response row sums to one the total of the measured plus overflow counts equals the total of the extended true counts; a wrong number of counts throws.", "quantifier": "every response matrix, counts vector and number of extra bins", "why_tests_cant": "matrix algebra over all dimensions", "anchors": ["src/Drm.cxx: convolve, compute_transpose"]}
{"id": "C31", "title": "Cached dispersion corrections reproduce the convolved spectrum", "statement": "After Drm_Cache::update, for every bin the correction factor times its reference true counts equals the measured counts, and the reference bin is the nearest bin with positive true counts where the bin itself has none.", "quantifier": "every true counts spectrum and response", "why_tests_cant": "bins with zero counts at either end exercise distinct branches", "anchors": ["src/Drm.cxx: Drm_Cache::update"]}
{"id": "C32", "title": "PowerLaw2 caching is invisible", "statement": "PowerLaw2::value and derivatives return the closed-form function of the current parameters and energy whatever calls were made before, on this or any other instance sharing the static cache.", "quantifier": "every history of value/derivative calls with arbitrary parameters and energies on any number of instances", "why_tests_cant": "cache keys compare floating point parameters; staleness depends on call history across objects", "anchors": ["Likelihood/PowerLaw2.h: updateCache", "src/PowerLaw2.cxx: value, derivByParamImp"]}
{"id": "C33", "title": "Spectral derivatives: PowerLaw2, LogParabola, ScaleFactor, FileFunction", "statement": "For PowerLaw2, LogParabola, ScaleFactor and FileFunction, derivByParam(x, p) is the partial derivative of value(x) with respect to the (unscaled) parameter p, for all parameter values, scales and energies in the domain.", "quantifier": "all real parameter values, scales and energies in the stated domain", "why_tests_cant": "calculus identities over the reals; finite difference tests sample points and tolerate scale factor errors when scale = 1", "anchors": ["src/PowerLaw2.cxx", "src/LogParabola.cxx", "src/LogNormal.cxx", "src/ExpCutoffSEDPeak.cxx", "src/ScaleFactor.cxx", "src/PiecewisePowerLaw.cxx: derivByParamImp"]}
{"id": "C34", "title": "Spectral derivatives: exponential cutoff family", "statement": "For ExpCutoff, BPLExpCutoff and PLSuperExpCutoff 1 to 4, derivByParam is the partial derivative of value away from the break energies.", "quantifier": "all real parameter values, scales and energies in the stated domain", "why_tests_cant": "calculus identities; clamped exponent regions are outside the tested range", "anchors": ["src/ExpCutoff.cxx", "src/BrokenPowerLawExpCutoff.cxx", "src/PowerLawSuperExpCutoff.cxx", "src/PowerLawSuperExpCutoff2.cxx", "src/PowerLawSuperExpCutoff3.cxx", "src/PowerLawSuperExpCutoff4.cxx"]}
{"id": "C35", "title": "Spectral derivatives: BrokenPowerLaw3", "statement": "For BrokenPowerLaw3, derivByParam is the partial derivative of value away from the break.", "quantifier": "all real parameter values, scales and energies in the stated domain", "why_tests_cant": "piecewise formulas have many branch combinations; scale factors other than 1 are rarely tested", "anchors": ["src/BrokenPowerLaw2.cxx", "src/BrokenPowerLaw3.cxx", "src/SmoothBrokenPowerLaw.cxx", "src/SmoothDoubleBrokenPowerLaw.cxx", "src/MultipleBrokenPowerLaw.cxx", "src/BandFunction.cxx"]}
{"id": "C36", "title": "The Integral parameter is the integral of the spectrum", "statement": "For PowerLaw2 with any index and for BrokenPowerLaw2 with any position of the break, the integral of value over [LowerLimit, UpperLimit] is the Integral parameter.", "quantifier": "all admissible parameters", "why_tests_cant": "a statement about a real integral for all parameters", "anchors": ["src/PowerLaw2.cxx: value, integral", "src/BrokenPowerLaw2.cxx: value, integral, N0_value", "src/BrokenPowerLaw3.cxx: integral"]}
{"id": "C37", "title": "Piecewise spectra are continuous across their breaks", "statement": "MultipleBrokenPowerLaw, PiecewisePowerLaw, BrokenPowerLaw2/3, ExpCutoff and BandFunction have no jump at a break energy (or where the formula changes).", "quantifier": "all admissible parameters and every break", "why_tests_cant": "needs exact evaluation at each break for all parameters", "anchors": ["src/MultipleBrokenPowerLaw.cxx: value, norm", "src/PiecewisePowerLaw.cxx: value, norm, plIndex", "src/BandFunction.cxx: value", "src/ExpCutoff.cxx: value", "src/BrokenPowerLawExpCutoff.cxx: value"]}
{"id": "C38", "title": "Gaussian priors and their derivatives in x", "statement": "The value of GaussianError is the (log) Gaussian of the current parameters, that of a LogGaussian is the logarithm of the normal distribution of its parameters as long as these are the ones it was made with, and for both derivative(x) is the derivative of the value in x.", "quantifier": "all parameter values and arguments", "why_tests_cant": "calculus identities over all reals", "anchors": ["src/LogGaussian.cxx", "src/GaussianError.cxx"]}
{"id": "C39", "title": "Predicted counts and fluxes of a source and their derivatives", "statement": "Npred of a source and the counts of a pixel of a source map are the documented integration rules of the spectrum; if the spectrum's derivByParam is the derivative of the spectrum, then pixelCountsDeriv and the flux derivatives are the derivatives of pixelCounts and of the fluxes.", "quantifier": "every spectrum, exposure, energy grid, parameter, event list and weights", "why_tests_cant": "quantifies over all spectra and grids", "anchors": ["src/Source.cxx: Npred, NpredDeriv, pixelCounts, pixelCountsDeriv", "src/OneSourceFunc.cxx: value, derivByParamImp", "src/Pixel.cxx: modelCounts, getFreeDerivs"]}
{"id": "C40", "title": "Band-limited spectrum", "statement": "EnergyBand returns the underlying spectrum and its derivatives inside [Emin,Emax) and 0 outside; bands sharing an edge never overlap and leave no gap; setting a parameter through the band changes the wrapped spectrum.", "quantifier": "all energies, limits and wrapped spectra", "why_tests_cant": "boundary energies; history of parameter updates and copies", "anchors": ["src/EnergyBand.cxx: value, derivByParamImp, setParam, EnergyBand"]}
{"id": "C41", "title": "Source map cache look-ups and refusals", "statement": "getSourceMap returns the map that is in the cache under a name and the same object until it is removed; inserting under an existing name or removing an absent one throws without change.", "quantifier": "every history of calls", "why_tests_cant": "double free / leak is a history property", "anchors": ["src/SourceMapCache.cxx: getSourceMap, insertSourceMap, removeSourceMap, eraseSourceMap"]}
{"id": "C42", "title": "Map library look-ups", "statement": "WcsMapLibrary::wcsmap returns the same object for a key until the key is deleted; has_map is true exactly for the loaded keys.", "quantifier": "every history of wcsmap, delete_map (by name or pointer), add_observer and remove_observer calls", "why_tests_cant": "dangling pointers depend on the call history", "anchors": ["src/WcsMapLibrary.cxx: wcsmap, delete_map, has_map, notify"]}
{"id": "C43", "title": "SparseVector::resize keeps the prefix and sets the size", "statement": "resize(n) keeps the elements below n, makes all others null, and afterwards size() is n, so that a following push_back appends at index n.", "quantifier": "every sparse vector and every n, growing and shrinking", "why_tests_cant": "the shrinking direction leaves a stale size that only shows in a later call", "anchors": ["Likelihood/SparseVector.h: SparseVector::resize"]}
{"id": "C44", "title": "Selecting energy bins in the fit scanner selects exactly those layers", "statement": "After setEnergyBins(first, last) the fit scanner's likelihood, gradient and fit use exactly the data and model bins of energy layers first..last-1, whether or not the compressed representation is used.", "quantifier": "every number of layers, pixels per layer, data content and requested range, in both representations", "why_tests_cant": "off-by-one errors at layer boundaries depend on the range and the representation", "anchors": ["src/FitScanner.cxx: FitScanCache::setEnergyBins, setEnergyBinStopIdxs, reduceModels", "src/FitUtils.cxx: extractNonZeroBins, sumModel, getLogLikelihood"]}
{"id": "C45", "title": "The normalisation fit never returns a negative normalisation", "statement": "When the Newton / Levenberg-Marquardt normalisation fit is started from non-negative normalisations, every normalisation it hands back is non-negative, whatever the return code and whatever the linear-algebra solver produced for the steps.", "quantifier": "every data set, templates, fixed model, prior, weights, tolerance, iteration limit, damping parameter, bin range, starting point with no negative component, and every behaviour of the matrix inversion and SVD solver", "why_tests_cant": "The step clamping has two passes that depend on solver output; tests only see the steps of a few well-behaved matrices, while the property must hold for every step and every number of iterations.", "anchors": ["src/FitUtils.cxx: getDeltaAndCovarAndEDM (both overloads), fitNorms_newton"]}
{"id": "C46", "title": "Plane totals of a source agree with its model map", "statement": "For every source the unweighted predicted counts of an energy plane that enter the likelihood equal the sum over the plane of the model map of that source; masked pixels stay untouched, and subtracting a source from the totals undoes adding it.", "quantifier": "every source map, storage type, spectrum, weights and dispersion setting", "why_tests_cant": "two independent summation orders (per pixel, per plane) must agree for all maps and responses", "anchors": ["src/SourceMap.cxx: computeNpredArray, computeNpredArray_sparse", "src/FitUtils.cxx: addFixedNpreds, npred_contribution, npred_edisp, updateModelMap"]}
{"id": "C47", "title": "Binned gradient is the derivative of the binned log-likelihood", "statement": "For every free spectral parameter of a source the derivative reported by the binned likelihood is the derivative of its value with respect to that parameter, provided the spectral derivatives are those of the spectrum and the model is positive in the filled pixels.", "quantifier": "every source map, data, spectrum, response, other sources and plane limits", "why_tests_cant": "finite differences on examples cannot settle an identity over all spectra and maps", "anchors": ["src/FitUtils.cxx: addFreeDerivs", "src/BinnedLikelihood.cxx: value, getFreeDerivs"]}
{"id": "C48", "title": "The likelihood does not depend on whether a source is fixed or free", "statement": "The predicted counts of a source counted through its detector-response cache (when free) equal those added to the fixed-source totals (when fixed), for the same parameters.", "quantifier": "every source map, response, weights and dispersion setting", "why_tests_cant": "two separately written computations must agree on all inputs", "anchors": ["src/Drm.cxx: Drm_Cache::update, Drm::convolve", "src/FitUtils.cxx: addFixedNpreds", "src/SourceMapCache.cxx: NpredValue"]}
{"id": "C49", "title": "Switching energy dispersion affects counts and totals alike", "statement": "After set_edisp_val the likelihood value is that of a likelihood built with the new setting: predicted counts, per-pixel model and fixed-source totals all use it, evaluation stays defined, and switching back restores the first value.", "quantifier": "every model, history and pair of settings", "why_tests_cant": "the setting is stored in several caches whose agreement depends on the history", "anchors": ["Likelihood/BinnedLikelihood.h: set_edisp_val", "Likelihood/SourceMapCache.h: set_edisp_flag", "src/BinnedLikelihood.cxx: computeModelMap_internal, fixedModelUpdated", "src/SourceMapCache.cxx: NpredValue"]}
{"id": "C50", "title": "Going back to the best fit seen", "statement": "Since the last time a source was added or deleted, restoreBestFit sets every parameter to the values of an evaluation that gave the largest log-likelihood, and value then returns that log-likelihood.", "quantifier": "every model and every history of parameter changes and evaluations", "why_tests_cant": "the record is updated by side effects of evaluation and depends on the whole history", "anchors": ["src/LogLike.cxx: saveBestFit, restoreBestFit, saveCurrentFit, addSource, deleteSource"]}
{"id": "C51", "title": "Unbinned gradient is the derivative of the unbinned log-likelihood", "statement": "getFreeDerivs returns one entry per free parameter, in the order of getFreeParams, and each is the derivative of value with respect to that parameter where the model is positive at every event.", "quantifier": "every model, event list and history of calls", "why_tests_cant": "an identity over all spectra, responses and cached states", "anchors": ["src/LogLike.cxx: getFreeDerivs, getLogSourceModelDerivs", "src/Npred.cxx: fetchDerivs", "src/PointSource.cxx: fluxDensityDeriv"]}
{"id": "C52", "title": "Events hold the contributions of the current model", "statement": "After value is called, the model sum of every event is the sum over the sources of the model of their density at that event, and each source's contribution is registered under its name.", "quantifier": "every model, event list and history of calls", "why_tests_cant": "contributions are refreshed only for some sources at each call, so correctness depends on the history", "anchors": ["src/LogLike.cxx: logSourceModel, addSource, deleteSource, syncSrcParams", "src/Event.cxx: updateModelSum"]}
{"id": "C53", "title": "Counts attributed to sources add up to the observed counts", "statement": "For a model whose sources are all registered with the events, the per-source observed counts returned by EventContainer::nobs(ebounds, source) add up, in every energy bin, to the observed counts returned by nobs(ebounds).", "quantifier": "every list of events, every strictly increasing list of energy bounds and every set of sources", "why_tests_cant": "the shares must add up for every event, including those on bin edges", "anchors": ["src/EventContainer.cxx: nobs"]}
{"id": "C54", "title": "Diffuse responses written to event files are read back for the right source", "statement": "After gtdiffrsp has processed a list of event files, reading any file back gives, for every event and every diffuse source of the model, the response that was computed for that event and source, and the responses of other sources that were in the file before are unchanged.", "quantifier": "every list of event files with any existing response columns, every list of sources and response function name", "why_tests_cant": "column numbers depend on the headers of all files processed before and on the order of names in them", "anchors": ["src/diffuseResponses/diffuseResponses.cxx: writeEventResponses, readExistingDiffRespKeys, haveDiffuseColumns", "src/EventContainer.cxx: getEvents, get_diffuse_names", "src/Event.cxx: diffuseResponse, computeResponseGQ"]}
{"id": "C55", "title": "Parameters named after a feature of a spectrum describe it", "statement": "The parameters that are named after a feature of a spectrum describe that feature: a normalisation is the value at the reference energy, an index the logarithmic slope there or, but for SmoothBrokenPowerLaw, far from the break on its side, a peak energy the maximum of E^2 dN/dE, and the points given to a piecewise power law lie on the spectrum.", "quantifier": "all parameter values in the physical range and all energies", "why_tests_cant": "statements about slopes, limits and maxima over all energies and parameter values", "anchors": ["src/LogParabola.cxx: value", "src/ExpCutoffSEDPeak.cxx: value", "src/PLSuperExpCutoff.cxx: value", "src/PLSuperExpCutoff3.cxx: value", "src/PLSuperExpCutoff4.cxx: value", "src/SmoothBrokenPowerLaw.cxx: value", "src/MultipleBrokenPowerLaw.cxx: value", "src/PiecewisePowerLaw.cxx: value"]}
{"id": "C56", "title": "A rebuilt source map shows the present source", "statement": "The source map that is rebuilt for a source shows the source with the position or spatial distribution it has now.", "quantifier": "every history of adding, deleting, replacing and moving sources, of loading, rebuilding and saving maps, and every content of the source map file", "why_tests_cant": "maps are kept by name over the life of the analysis; a stale map shows only after particular sequences of calls", "anchors": ["src/SourceMapCache.cxx: getSourceMap, loadSourceMap", "src/SourceMap.cxx: setSource, resetSourceData", "src/BinnedLikelihood.cxx: addSource, deleteSource"]}
{"id": "C57", "title": "Scaled spectra and their derivatives", "statement": "ScaleFactor returns the wrapped spectrum and its derivatives times the factor, or times one minus the factor in the complement form; its derivative by the factor is right.", "quantifier": "all energies, factors, wrapped spectra, and histories of setting parameters and flags, copying and assigning", "why_tests_cant": "depends on the history of parameter, bound and flag changes on several objects that share parameters by reference", "anchors": ["src/ScaleFactor.cxx: value, derivByParamImp, prefactor, check_complement_usage, setParam", "Likelihood/ScaleFactor.h: set_complement_flag"]}
{"id": "C58", "title": "Predicted counts over the whole grid", "statement": "Source::Npred(emin, emax) over the whole energy grid of the source, or more, equals Npred().", "quantifier": "every energy grid, exposure, spectrum and range", "why_tests_cant": "quantifies over all grids and ranges, in particular non-uniform grids and ranges beyond the ends", "anchors": ["src/Source.cxx: Npred, NpredDeriv, getExposureArrays", "src/PointSource.cxx: computeExposure", "src/RoiCuts.cxx: makeEnergyVector"]}
{"id": "C59", "title": "Only good time counts as livetime", "statement": "For every spacecraft interval, every set of time cuts and every ordered list of disjoint good time intervals (GTIs), the fraction returned by LikeExposure::acceptInterval is the duration of the times of the interval that lie in all time cuts and in some GTI, divided by the length of the interval; it is between 0 and 1 and is 0 when the interval is rejected. Loading a time-ordered spacecraft table fills, for each row in order, its livetime times that fraction in the direction of the row, and skips only rows that have no good time.", "quantifier": "all intervals, all lists of time cuts and GTIs, all spacecraft tables of any length", "why_tests_cant": "The GTIs looked at are found with two binary searches and the rows with two scans; off-by-one mistakes show only for particular alignments of row, cut and GTI boundaries, of which there are infinitely many.", "anchors": ["src/LikeExposure.cxx: acceptInterval, overlaps, overlap, load, LikeExposure, computeCosbins"]}
{"id": "C60", "title": "Spacecraft data: reading, livetime fractions and axes", "statement": "Reading spacecraft files keeps the intervals near the requested time range in the order of the files. For every time covered by the data the livetime fraction is that of the interval containing it (0 in gaps) and the spacecraft axes are the normalised linear interpolation of the recorded axes.", "quantifier": "all spacecraft files, all times in the covered range and its tolerance, all GTIs, cuts, energies and source directions", "why_tests_cant": "Look-up by time depends on where a time falls relative to arbitrarily many intervals and gaps, and the sum has a data-dependent upper limit.", "anchors": ["src/ScData.cxx: readData, time_index, livetimefrac, xAxis, zAxis", "src/PointSource.cxx: computeExposure"]}
{"id": "C61", "title": "Region-of-interest cuts read from a file", "statement": "Reading the selections of an event file makes an object without cuts hold that file's energy range, region, time ranges, GTIs and earliest time. The energy grid is logarithmically uniform from the lower to the upper energy; impossible energy limits are refused.", "quantifier": "all selections found in files, all sequences of reading and setting, all events, all energy ranges", "why_tests_cant": "The outcome depends on every combination of good times, time ranges and event times and on the history of reads, which a test samples at a few points.", "anchors": ["src/RoiCuts.cxx: readCuts, setCuts, addTimeInterval, sortCuts, setRoiData, accept, makeEnergyVector, getGtis, getTimeCuts"]}
{"id": "C62", "title": "Value and parameter count of composite likelihoods", "statement": "For a CompositeLikelihood (several likelihoods sharing the spectral shape of a common source): getNumFreeParams is the length of getFreeParams; value() is the sum of the components' values, for the parameters they have at the time; every component has the common source, with one spectral type for all.", "quantifier": "every number of components, sources and parameters, every pattern of free parameters, every vector of values and every order of calls", "why_tests_cant": "three groups of parameters from different objects are interleaved in one vector; the slot of a derivative depends on the free flags of every component", "anchors": ["src/CompositeLikelihood.cxx: addComponent, getFreeParams, setFreeParamValues, getNumFreeParams, getFreeDerivs, syncParams, value", "src/BinnedLikelihood.cxx: syncParams, getFreeDerivs"]}
{"id": "C63", "title": "Snapshots notice every change of a source", "statement": "After a snapshot of a source model is taken, comparing it with the model lists a source of it, once and under the right heading, exactly when it is no longer in the model, when one of its parameters moved (by more than 1e-5 relatively), was freed or fixed, changed prior, or when its spectral or spatial type changed; it lists a source of the model as new, free or fixed, exactly when the snapshot does not have it; nothing is reported when nothing changed.", "quantifier": "all pairs of models (any number of sources, parameters, priors), all sets of template sources", "why_tests_cant": "the status is a 30-bit mask combined over every source; exactness has to hold for every combination of changes, and overlap of shifted bits or swapped flags only shows for particular combinations", "anchors": ["Likelihood/Snapshot.h: Snapshot_Status", "src/Snapshot.cxx: Snapshot_Source::compare, Snapshot::latch_model, compare_source, compare_model, compare_latched", "src/FitScanner.cxx: FitScanCache::find_action_needed"]}
{"id": "C64", "title": "Merged energy grids and pixel vectors of a fit scanner", "statement": "For a fit scanner built on a sum of binned analyses, the merged energy grid holds each energy edge of each component exactly once and in increasing order (edges closer than the tolerance count as one); the merged data, model and weight vectors hold each pixel value of each energy bin of each component exactly once, in the layer that begins at the lower edge of the bin, all laid out in the same way, so that any sum over pixels of data and model is the sum over the components.", "quantifier": "all numbers of components, energy grids, pixel numbers, values, functions summed, and energy ranges", "why_tests_cant": "tests use one or two components with equal grids; the merging must be right for every combination of grids and pixel numbers", "anchors": ["src/FitScanner.cxx: FitScanModelWrapper_Summed::findMinAndMatches, mergeVectors, FitScanModelWrapper_Summed constructor, set_klims", "Likelihood/FitScanner.h: FitScanModelWrapper_Summed"]}
{"id": "C65", "title": "Building the fit scanner's cache and its test source", "statement": "For counts proportional to a positive normalisation, a cache built from the sources of a likelihood holds, for every free source, a template and a parameter whose product is the source's counts and a reference value whose product with the parameter is its normalisation, and the fixed part plus the free sources is the predicted counts of all sources but the test source; putting the test source in and taking it out restores the fit.", "quantifier": "all sets of sources, numbers of bins, normalisations, histories of model changes, fits and test sources", "why_tests_cant": "tests update the cache once or twice after one kind of change; the cache must follow the model through every history", "anchors": ["src/FitScanner.cxx: FitScanCache constructor, update_with_action, setCache, refactorModel, getParScales, addTestSourceToCurrent, removeTestSourceFromCurrent, setTestSource, update_template_for_source, build_from_model, get_status_and_scales", "src/FitUtils.cxx: extractModels, extractFixedModel, refactorModels"]}
{"id": "C66", "title": "Averaged point spread function", "statement": "Building the averaged point spread function of a position tabulates, at every energy and separation of its grids, the exposure-weighted mean of the response functions' values, divided so that the integral of the interpolated profile over the cone of the largest separation is one; the integral as a function of the angle never decreases and lies between zero and one; where the function does not vanish every fraction has a containment angle, whose integral is that fraction; derivative and value agree with the interpolation of the table inside the grid; objects built after one another share the grid of separations without disturbing each other.", "quantifier": "all energy grids, responses, exposures, positions, energies, angles and fractions, and all sequences of constructions in one process", "why_tests_cant": "tests look at a few angles of one response set; normalisation and inversion must hold for every table the responses can produce, including positions without exposure and energies at the ends of the grid", "anchors": ["src/MeanPsf.cxx MeanPsf::init, computePsfInts, integral, containmentRadius, derivative, operator()", "Likelihood/MeanPsf.h"]}
{"id": "C67", "title": "Layout of binned exposure maps", "statement": "A binned exposure map built from parameters, from a list of energies or from a counts map holds, at every pixel and energy, the sum over response functions of the exposure at the direction of the pixel's centre, zero where the projection has no such pixel; an energy within one part in a hundred thousand of a tabulated one finds such an energy; look-ups far off the map are refused when boundaries are enforced; inclination cuts exclude exactly the inclinations outside the requested range.", "quantifier": "all projections, map sizes, energy lists, response functions, exposures, directions and requested energies", "why_tests_cant": "tests compare a few directions inside one map; the layout and the boundary behaviour must hold for every size, projection and direction, including those just off the map and files whose projection is rotated or centred elsewhere", "anchors": ["src/BinnedExposure.cxx BinnedExposure::computeMap, operator(), get_exposures_for_dir, setMapGeometry, writeOutput", "src/BinnedExposureBase.cxx findNearest, setCosThetaBounds, Aeff::value"]}
{"id": "C68", "title": "Look-up and interpolation of sky maps", "statement": "Looking up a sky map at a direction and an energy gives zero off the map, the pixel the direction lies in when interpolation is off, and otherwise the bilinear interpolation of the four surrounding pixels, with the nearest pixel in the outer half of the border; at the centre of a pixel it gives the pixel; when interpolating, a map recognised as going all around the sky joins its last column to its first; at a tabulated energy the value is that of its plane, between tabulated energies it follows the power law through the two neighbours, beyond them that of the first or last two, with straight lines where a value is zero; energies off the range are refused on request; values of a non-negative map are never negative and never outside the range of its pixels; the tabulated integrals over the planes follow the power law through positive neighbours; the product with an exposure multiplies every pixel by its own exposure.", "quantifier": "all map sizes, pixel values, energies, flags and directions (pixel coordinates)", "why_tests_cant": "tests look up a few pixels of one file; the claims range over every coordinate, including the seam of an all-sky map, the half-pixel border, missing planes and zero values", "anchors": ["src/WcsMap2.cxx WcsMap2::operator(), pixelValue, insideMap, convolve", "src/ProjMap.cxx ProjMap::mapIntegral, interpolatePowerLaw, check_energy_index, check_energy"]}
{"id": "C69", "title": "Filling, integration and rebinning of sky maps", "statement": "The pixels of a file fill a map with the columns running fastest; where solid angles are not zero counts turned into intensities and back are the counts; the map carries, for each energy, the sum over its pixels of value times solid angle and the integral of these over energy; rebinning gives maps of just enough blocks, whose pixels are the sums, or the means weighed with positive solid angles, of the blocks, and keeps the total, the range of values and the position on the sky; a factor of one changes nothing; a plane with a negative pixel is refused; the farthest and the closest of the border pixels, the corners and the solid angles of pixels away from the poles are what they say.", "quantifier": "all map sizes, pixel values, solid angles, energies and rebinning factors", "why_tests_cant": "a test rebins one map by one factor; the claims range over every size and factor, including those that do not divide, oblong maps, pixels off the sky and at the pole", "anchors": ["src/WcsMap2.cxx foldVector, fillSolidAngles, convertToDifferential, convertToIntegral", "src/WcsMap2.cxx WcsMap2::WcsMap2, solidAngle, solidAngles, computeMapIntegrals, rebin, minMaxDistPixels, getCorners, check_negative_pixels"]}
{"id": "C70", "title": "Shapes of extended sources", "statement": "A tabulated radial profile with at least two rising abscissae is the straight line between neighbouring points of its table, takes the tabulated values at them and stays within their range between them; a file that is not well formed is refused; the integral over the sky is that of the table's trapezoids; the profile is centred where it was last placed, else where its parameters said at its first evaluation. A disk or a Gaussian is centred and sized as its parameters say whenever a parameter was last set or all were read, is normalised to one in the plane, and its convolution with a function of the distance integrates, ring by ring, just the part of each ring that lies in the source. A diffuse source can be moved exactly when it says so, its reference direction is then the new one, its radius is that of its shape when first asked for, and the direction of a point source is always that of its parameters.", "quantifier": "all tables, offsets, directions, sizes and histories of commands", "why_tests_cant": "a test evaluates a few offsets of one template; repeated abscissae, offsets beyond the table, a centre moved before or after the first evaluation, parameters re-read from a file and cones that reach around the sky are other histories and other inputs", "anchors": ["src/RadialProfile.cxx: valueAtOffset, value, setCenter, readTemplateFile, angularIntegral", "src/SpatialFunction.cxx: setCenter, setParams, update", "src/RadialDisk.cxx, src/RadialGaussian.cxx: value, convolve, getDiffRespLimits", "src/SkyDirFunction.cxx: setParam", "src/DiffuseSource.cxx: moveSource, mapRefDir, angularIntegral, computeMapRadius"]}
{"id": "C71", "title": "Diffuse response integrals cover the sky once", "statement": "The variables of the integral that gives an event's response to a diffuse source are polar coordinates about the event's direction: mu is the cosine of the angle from it and phi the position angle from east through north; each direction but the coordinates' poles is met exactly once; rotating to the event's direction keeps angles and is undone by the reverse rotation. The integrand is the response to a direction times the source there, and nothing beyond 90 degrees from the spacecraft axis. An event inside a map is integrated over all position angles and out to the farthest border pixel. Splitting the range at the containment radius changes nothing. The sum over the map that replaces the integral takes every pixel in range with its own direction and solid angle; that range is at least 5 degrees and never grows with energy.", "quantifier": "all directions, cosines, position angles, limits, energies and maps; all ways to read right ascension and declination off a direction; all responses and sources", "why_tests_cant": "tests evaluate a handful of directions; that every direction is reached once, by the right angle, is a statement about the whole sphere", "anchors": ["src/EquinoxRotation.cxx: EquinoxRotation, do_rotation", "src/DiffRespIntegrand.cxx: getSrcDir, phiValue", "src/DiffRespIntegrand2.cxx: getSrcDir, operator()", "src/DiffuseSource.cxx: diffuseResponse_wcs, psfRange", "src/Event.cxx: computeResponseGQ"]}
{"id": "C72", "title": "The map of a point source holds its PSF times the exposure", "statement": "Each cell of the source map of a point source holds the PSF averaged over the pixel, times the pixel's solid angle, times the exposure at the layer's energy; layers follow each other in the order of the energies asked for. With PSF corrections each layer is multiplied by one number, after which the pixels no farther from the source than the map's border hold exactly the exposure times the PSF's integral out to that distance. The average over a pixel is the PSF at its centre, the content of a cone or ring of known solid angle divided by that solid angle, or the mean over n^2 equal parts of the pixel, refined until the change is below the tolerance; distances in the pixel plane are corrected so that they are the true separations at pixel centres, with interpolation that is exact for bilinear functions. Without convolution the nearest pixel holds the exposure and the others nothing. On HEALPix maps the PSF over the sky adds up to its integral out to the containment radius.", "quantifier": "all maps, source positions, energies, PSFs, exposures, estimator settings and ranges of energies", "why_tests_cant": "tests compare a few maps for one PSF; normalisation and layout must hold for every map, position and range", "anchors": ["src/PSFUtils.cxx: makePointSourceMap_wcs, makePointSourceMap_healpix, createOffsetMap, bilinear_on_grid, integrate_psf_adaptive, integrate_psf_fast, psfValue_annular, maxPsfRadius", "src/ConvolveHealpix.cxx: fillMapWithPSF_refDir", "Likelihood/Pixel.h: find"]}
{"id": "C73", "title": "Source models survive XML files", "statement": "Writing a model to an XML file and reading it into an empty model gives every source back: names, kinds, members of composites, functions, files, parameters with their bounds and free flags, and positions, each number rounded once to the digits of the file; writing what was read gives the same bytes. Reading a file again sets, in every source of the model that the file names, the parameters of the file and leaves other sources alone. Reading any file never removes or changes a source of the model and keeps the order of names; a reading that succeeds adds exactly the sources the file names; a file with a repeated name, a source without a spectrum or text that is no document is refused and changes nothing. The flux simulation file holds each source's name, position and flux, 100 trapezoids in steps of a constant factor.", "quantifier": "all models of point, diffuse and nested composite sources with text free of quotes and ampersands, values in their bounds and functions the factory knows; all documents for the claims about reading", "why_tests_cant": "tests read and write a few models; names, nesting, numbers of parameters and broken files are unbounded", "anchors": ["src/SourceModelBuilder.cxx: addSource, spectralPart, addSpatialPart, addComposite, prettyPrint", "src/SourceFactory.cxx: readXml, makeSources, setSpectrum, addParamsToMultipleBPL, addParamsToPiecewisePL", "src/SourceModel.cxx: readXml, reReadXml, writeXml, write_fluxXml", "src/FluxBuilder.cxx: addSource", "src/AppHelpers.cxx: addFunctionPrototypes"]}
{"id": "C74", "title": "Vectors, maps, spectra and files of source maps agree with the sources", "statement": "Adding a source map to a vector adds, pixel by pixel, the stored value times the spectrum of the source, whichever way the map is stored; subtracting undoes it; a vector of the wrong size is refused. The summed map of several sources and the model map of a list of sources are the sums over the sources, whichever maps are in memory, and no map in memory is lost. The counts spectrum of a source shares the observed counts in proportion to the predictions, and the spectra of all sources add up to the observed counts of each plane. Saving puts every map in memory in its file, replaces only on request, leaves everything else in the files as it was, and up to 499 sources are found again.", "quantifier": "all maps, vectors, plane ranges, storage kinds and arithmetic; all lists of sources, caches and masks; all data and filled-pixel lists; all file systems, lists of sources and flags", "why_tests_cant": "the map type, the plane range, the cached maps, the old contents of the vector and of the files vary independently; a test sees one combination", "anchors": ["src/SourceMap.cxx: addToVector, subtractFromVector and their _full and _sparse versions", "src/SourceMapCache.cxx: computeModelMap, fillSummedSourceMap, getSourceMap, saveSourceMaps", "src/BinnedLikelihood.cxx: countsSpectrum, saveSourceMaps, fillSummedSourceMap"]}
{"id": "C75", "title": "The fit by expectation maximisation", "statement": "In a round of the EM fit every event is shared among the sources in proportion to their flux densities: the weights lie between 0 and 1 and add up to 1 for each event. If the optimizer never leaves a source with a lower statistic than it found, a round lowers the log-likelihood of the whole model by at most r times the total weight of the ignored pairs (those of weight one per cent or less), where no flux density of an ignored pair falls by more than the factor exp(-r); a fit in which no pair is ignored never lowers it, however many rounds it takes. The derivatives of the statistic of a source are its derivatives. Parameters set through the statistic are the parameters of the source, in order; only values of free parameters change. A finished fit made at least two rounds and its last round changed the sum of the statistics by at most a tenth of the tolerance. With nothing free the call throws.", "quantifier": "all flux densities and predicted counts as functions of the parameters, all numbers of sources, events and rounds, all optimizers", "why_tests_cant": "a test runs one data set with one optimizer; that the likelihood rises is an inequality over all models (Jensen's inequality)", "anchors": ["src/OptEM.cxx: findMin, chifunc", "src/OneSourceFunc.cxx: value, derivByParamImp, setFreeParamValues_, setParamValues_, setParams, syncParams"]}
{"id": "C76", "title": "Exposure of diffuse sources and exposure maps", "statement": "For a complete exposure map with at least two ascending positive energies and any positive energies asked for, the exposure of a diffuse source is the sum over the map's pixels of its spatial distribution times the solid angle times the exposure, interpolated linearly in the logarithm of the energy between the enclosing planes (extrapolated from the outer two); at an energy of the map it is the plane itself; it is linear in the spatial distribution and not negative inside the energy range. Integrating over the source's own map gives the totals over its pixels at the energies of the exposure map and the power law through them elsewhere. After a successful calculation the source has one exposure for each energy. A computed exposure map has energies from emin to emax in equal logarithmic steps and holds each pixel's exposure, parts of a map add up to the whole, reading a written map gives the computed planes back, and a file with too short an image is refused.", "quantifier": "all exposure maps, spatial distributions, source maps, energy lists, map sizes, sub-map windows and file contents", "why_tests_cant": "the claims cover every map size, every energy inside, on and outside the grid, every spatial distribution and every split of a map into parts", "anchors": ["src/ExposureMap.cxx: readExposureFile, integrateSpatialDist, computeMap, writeFitsFile, readEnergyExtension", "src/MapBase.cxx: interpolatePowerLaw", "src/MapCubeFunction2.cxx: integrateSpatialDist_wcs, integrateSpatialDist_healpix", "src/SpatialMap.cxx: integrateSpatialDist_wcs, integrateSpatialDist_healpix", "src/DiffuseSource.cxx: computeExposure"]}
{"id": "C77", "title": "Counts maps: pixels, events, headers, weights and effective backgrounds", "statement": "Every event is counted in exactly the cell of the map whose pixel holds its projected place and whose energy bin holds its energy, and files may be binned one after the other. Pixel (i, j) is entry j nx + i, lies at place (i + 1, j + 1) and has the solid angle of the square around it; the border of a map is exactly the set of corners on its edge, and an error if one of them is not on the sky. A written header reads back as the same geometry; a new map is centred on its reference direction. For maps of equal size the combined weight of a cell is (1 + e m) / (1 + e m sum (m/b)^2), m the smallest of the backgrounds b, whatever the order of the maps; the weight of the cell is that over 1 + e B, between 0 and 1 and falling with B; N equal components give 1 / (1 + N e b). The effective background of a cell adds, over the energy bins from its own up to the given factor in energy, the convolved counts under the peak of the PSF. The pixel numbers of a HEALPix map translate back and forth.", "quantifier": "all map sizes, energy grids, projections, lists of events, numbers and contents of background maps, header contents", "why_tests_cant": "the claims cover every number of pixels and bins, every list of events including those on an edge, every projection and every set of backgrounds", "anchors": ["src/CountsMapBase.cxx: fillEnergyBinWidths, fillEnergyBinGeomCenters, getAlphaWts, getAlphaVector, getWts, makeAlphaMap, makeWtsMap, getAxisVector, imageDimension", "src/CountsMap.cxx: makeBkgEffMap, init, readKeywords, setKeywords, binInput, withinBounds, getPixels, computeSolidAngle, getBoundaryPixelDirs, checkMapConforms, pixelSize", "src/CountsMapHealpix.cxx: makeBkgEffMap, globalToLocalIndex, localToGlobalIndex"]}
{"id": "C78", "title": "Composite sources: densities, derivatives, and moving sources with their maps", "statement": "The density of a source made of other sources is its own spectrum times the sum of the members' densities, also with a cached response when at most one member is a point source; its derivative by a parameter of the members is the derivative of that density. Merging sources that are in the model, each with its map, moves exactly those sources and exactly their maps into the composite, leaves all other sources and maps as they were, and gives the composite the map computed for it; the books of the model (names, maps, fixed sources) stay consistent. Splitting the composite again restores every source, every map and the list of fixed sources.", "quantifier": "all models, lists of names, members, spectra, responses and maps; binned and unbinned; with and without the single fixed map", "why_tests_cant": "the claims cover every set of sources, every selection and order of names and every value of spectra and responses", "anchors": ["src/CompositeSource.cxx: fluxDensity, fluxDensityDeriv, addSource, steal_source, give_source", "src/SourceModel.cxx: mergeSources, splitCompositeSource, addSource, deleteSource", "src/BinnedLikelihood.cxx: addSource, deleteSource, addFixedSource, initialize_composite", "src/SourceMapCache.cxx: getSourceMap, insertSourceMap, removeSourceMap", "src/PointSource.cxx: fluxDensity, fluxDensityDeriv"]}
{"id": "C79", "title": "Counts spectra: bounds, sources, totals, files and shares in the data", "statement": "Bounds set for an unbinned fit are as many as asked for, run from emin to emax exactly in equal ratios and rise; those of a binned fit are its own and cannot be changed. The counts and the fluxes of a source have one value per bin, what the source predicts between the two bounds; they sum up to what it predicts in the whole range, whatever the number of bins; the total is the sum over all sources in every bin. Observed counts hold every event of the range in exactly one bin. The file holds these numbers, the observed counts first, then the fluxes of the point sources, then the bounds, whatever it held before. The spectrum of a counts map has in each energy the sum over its pixels and as a whole the sum of the map. The counts in the filled pixels are shared out completely among the sources.", "quantifier": "all energy ranges, numbers of bounds, sets of sources, predictions, events, counts maps and energy limits", "why_tests_cant": "the claims cover every number of bins, every set of sources and events, and every shape of counts map", "anchors": ["src/CountsSpectra.cxx: setEbounds, getSrcCounts, getSrcFluxes, getTotalSrcCounts, getObsCounts, writeTable, writeCounts, writeFluxes, writeEbounds", "src/BinnedCountsCache.cxx: computeCountsSpectrum_wcs, computeCountsSpectrum_healpix", "src/BinnedLikelihood.cxx: countsSpectrum, computeModelMap_internal", "src/EventContainer.cxx: nobs"]}
{"id": "C80", "title": "Scans of a normalisation are profiles of the likelihood; freeing and freezing touch only what they should", "statement": "Given an optimizer that finds the best allowed values, a scan of the normalisation of a source over an energy range reports the best likelihood and the value of the normalisation there, and for as many values as asked for the best likelihood with the normalisation fixed at that value and all other free parameters refitted, never above the best one. The values are in equal steps between the stated ends. If the range lies within the bounds of the parameter the scan succeeds. The spectrum of a source is one such scan for each energy bin, of the likelihood of that bin, independent of the scans before. Freezing all parameters fixes every one and changes nothing else; freeing or fixing the normalisations of a list of sources changes exactly those.", "quantifier": "all models, likelihoods, optimizers that find the best allowed values, energy ranges, numbers of scan values and lists of sources", "why_tests_cant": "the claims cover every likelihood surface, every set of free parameters and every number of bins and steps", "anchors": ["src/ScanUtils.cxx: freezeSourceParams, freezeAllParams, freeNormalizations, scan_norm_binned, sed_binned", "src/FitScanner.cxx: set_klims"]}
{"id": "C81", "title": "HEALPix sky maps return the values and integrals of the map they were made from", "statement": "A sky map in HEALPix pixels made from a file with one column per energy has these columns as its planes; made from a spatial distribution it has its values in the pixels, with tiny negative values as zero, and larger negative ones are refused; made from a counts map, its intensities times the solid angle of a pixel and the width of the energy bin give the counts back, at the geometric means of the energy bounds, and weights are copied. The integral over the sky of a plane is the sum over its pixels times their solid angle, 4 pi over their number, so that a constant c integrates to 4 pi c. The value in a direction is that of the pixel it lies in or, with interpolation, between the smallest and the largest of the plane; between two energies it is on the power law through the values on the two planes, at the energy of a plane it is the value there, and tiny negative values do not make it negative. With enforced boundaries other energies are refused. Multiplying by the exposure multiplies each pixel of each plane and recomputes the integrals.", "quantifier": "all nside, energies, pixel values, directions, interpolation weights, counts maps, exposures and spatial distributions", "why_tests_cant": "the claims cover maps of every resolution, all directions and energies and every distribution of values", "anchors": ["src/HealpixProjMap.cxx: constructors, operator(), convolveAll, computeMapIntegrals, foldVector, convertToDifferential", "src/ProjMap.cxx: check_energy_index, check_energy"]}
{"id": "C82", "title": "Priors, errors and scans of the fit scanner", "statement": "The fit scanner adds to the log-likelihood, for the priors of the model, the sum of -1/2 ((value - mean) / sigma)^2 over the free sources that have a prior, whatever the reference values of the normalisations and with or without the test source. A prior given by central values and a covariance, or made of the parameters and the scaled covariance of the last fit with all sources free, is the Gaussian with the inverse of that covariance: it is never positive, zero at the centre, and does not depend on the test source. What a prior adds to the gradient is the change of its log-likelihood with each of the parameters. The errors of the test source are the positive roots of x^2 / variance + gradient x = delta and of the same with the opposite gradient; a negative error larger than the value is reported as -1, and the symmetric error is their mean or the positive one. A scan has the given number of equidistant normalisations between the two ends, and for each of them the log-likelihood of the fit of the other sources, or of the model, with the test source fixed at it.", "quantifier": "all numbers of sources, sets of free sources, priors, positive reference values from 1e-15, covariances, parameters, gradients, scans and models", "why_tests_cant": "the claims cover every set of free sources and priors, every covariance and all parameters", "anchors": ["src/FitScanner.cxx: FitScanMVPrior, FitScanCache::refactorPrior, buildPriorsFromExternal, buildPriorsFromCurrent, scanNormalization, signalUncertainty_quad, getPrior, extract_init_priors_from_model", "src/FitUtils.cxx: vectorAdd, symmetricError, extractPriors"]}
{"id": "C83", "title": "Maps, matrices and parameters written to files are read back", "statement": "A HEALPix map written to a new table is read back with the same values and number of planes, whatever the first energy; so is one written over a map with no more planes. A map in an image is read back whole, or with the planes asked for if it holds all planes. A sparse map whose entries lie within the energies of the counts map is read back with the same entries; one with an entry outside is refused with an exception. Reading a sparse map raises an exception exactly if more than ten rows cannot be read. The edges of contiguous energy bins are read back in MeV. A response matrix is written with one row, and the edges, of each true bin, and with one energy added at each end its energies and rows are read back. The parameter table has one row for each parameter of each source, with its names, value, scale, error and flag.", "quantifier": "all maps, numbers of pixels, planes and first planes, sparse maps, tables with unreadable rows, energies, response matrices and source models", "why_tests_cant": "the round trips are claimed for every map and every earlier content of the file", "anchors": ["src/FileUtils.cxx: read_ebounds_to_vector, read_fits_image_to_float_vector, read_healpix_table_to_float_vector, read_healpix_table_to_sparse_vector, replace_image_from_float_vector_wcs, replace_image_from_float_vector_healpix, replace_image_from_sparse_vector_healpix, append_image_from_float_vector_wcs, append_image_from_float_vector_healpix, append_image_from_sparse_vector_healpix, write_model_parameters_to_table, write_drm_to_table, read_drm_from_table"]}
{"id": "C84", "title": "The checks of data selections by the tools", "statement": "The check of times reports nothing exactly if the good time intervals of two files agree one by one; otherwise it reports the sums of the differences of their starts and stops, or raises an exception. Event files are accepted together exactly if the selections of any two of them agree apart from the times. An unbinned exposure map whose other selections agree is accepted exactly if it accepts every energy that the events' cuts accept, and refused with an exception otherwise. The event types are the bits of the mask of the last EVENT_TYPE cut, or of the default; the sum of their powers of two is the mask. The response functions use the event types asked for, unless CALDB is asked for and the file with the event class has its own; qualifiers in their name are refused. A counts map in an image is accepted exactly if the exposure map covers all pixels of its border.", "quantifier": "all selections, numbers of files, energy ranges, masks, parameters of tools, sizes of images, projections and regions covered", "why_tests_cant": "the checks must hold for every pair of selections, every mask and every image", "anchors": ["src/AppHelpers.cxx: checkTimeCuts, checkCuts, checkExpMapCuts, getRangeBounds, gatherGtiCuts, getSelectedEvtTypes, createResponseFuncs, checkExposureMap_wcs", "src/likelihood/likelihood.cxx: run", "src/gtcntsmap/gtcntsmap.cxx: run"]}
{"id": "C85", "title": "Sums of livetime cubes, source probabilities and response functions of events", "statement": "gtltsum adds livetime cubes exactly if all of them have the inclination bins, directions and largest zenith angle of the first and the output may be written, and raises an exception otherwise. Every livetime of the output is the sum of the files' livetimes, its start is the earliest and its stop the latest; the order of the files does not matter, and an output can be extended by further files with the same result as one sum. Cubes of other inclination bins are refused before the output is touched. If the region of interest holds all events, gtsrcprob writes for each event and listed source the part of its density in the sum over all sources of the model, so that the probabilities of all sources add up to 1 and lie between 0 and 1, and leaves other columns alone; a listed name that is no source gets 0; it succeeds if names differ in more than case and no event has density 0. The event type is the highest of the event's bits in the mask of the event file's last EVENT_TYPE selection (front and back without); the response functions loaded are those of the event types asked for; with the file's own selection every event of a selected type has its response functions.", "quantifier": "all numbers, orders and shapes of livetime cubes, all models, source lists, event files, densities, masks and event types", "why_tests_cant": "the sums must be right for every cube and order of files, the probabilities for every model and event", "anchors": ["src/gtaddlivetime/gtaddlivetime.cxx: run, check_costheta_bounds, get_costheta_bounds, zenmax, addTables", "src/gtsrcprob/gtsrcprob.cxx: readEventData, getSourceList, writeDensities", "src/EventContainer.cxx: getEvents", "src/ResponseFunctions.cxx: load, respPtr"]}
{"id": "C102", "title": "Ranged sparse exports and exports into used destinations", "statement": "The ranged exports [first,last) to a dense vector and to (keys, values) deliver exactly the stored entries of that range and never write outside the destination; an export into a destination that is not empty replaces its content.", "quantifier": "every sparse vector, every destination buffer and every range first <= last <= size()", "why_tests_cant": "round trips must hold for all contents and all pre-existing destination buffers; out-of-bounds writes at a range boundary are silent in tests", "anchors": ["Likelihood/SparseVector.h: fill_vect, fill_map, fill_key_and_value, fill_from_map, fill_from_key_and_value"]}
{"id": "C104", "title": "The binned accumulator conserves the sum", "statement": "For any list of addends, Accumulator::total() returns the sum of everything added since construction or the previous total(), independently of the internal binning, in exact arithmetic; total() leaves the accumulator empty; the internal bin index is always within the bin array.", "quantifier": "every sequence of add and total calls with any addends", "why_tests_cant": "the sum over internal bins is only correct if no addend is lost or double counted for any magnitude ordering; tests sample a few magnitudes", "anchors": ["Likelihood/Accumulator.h: Kahan_Accumulator::add, total", "src/Accumulator.cxx: Accumulator::add, total, indx"]}
{"id": "C106", "title": "Histogram sums over a range", "statement": "sumRange over [first,last) of an axis returns, per remaining cell, the sum of the cells in the range.", "quantifier": "every shape, axis, slice coordinates, range and data of the matching length", "why_tests_cant": "stride arithmetic must be right for every shape and axis, not only square ones", "anchors": ["src/HistND.cxx: setSlice, getSlice, sumRange"]}
{"id": "C116", "title": "The parameter vector is that of the sources after any operation", "statement": "After any operation the model's parameter vector is the concatenation, in source-name order, of the sources' spectral parameters.", "quantifier": "every set of sources, every free pattern, every value vector", "why_tests_cant": "mis-ordering is only visible for particular free patterns and source names", "anchors": ["src/SourceModel.cxx: syncParams, setParamValues_, setFreeParamValues_, setParams_, setParam"]}
{"id": "C119", "title": "Gradient of a summed likelihood", "statement": "getFreeDerivs of a SummedLikelihood lists, in the order of getFreeParams and whatever the output vector held before, for an untied parameter the sum over the components of its derivatives and for a tied group the sum over its members.", "quantifier": "every number of components, tied groups and free patterns", "why_tests_cant": "a wrong slot or a dropped member only shows for particular groupings", "anchors": ["src/Composite2.cxx: getFreeDerivs", "src/SummedLikelihood.cxx: getFreeDerivs"]}
{"id": "C128", "title": "Only keys are accepted as keys", "statement": "A string that is the key of no registered column is refused.", "quantifier": "every sequence of registrations and every root name", "why_tests_cant": "index formatting and parsing must be inverse for all indices, not just single digits", "anchors": ["src/DiffRespNames.cxx: addColumn, key, operator[]"]}
{"id": "C130", "title": "Energy dispersion convolution is linear and keeps counts non-negative", "statement": "Drm::convolve is linear and maps non-negative counts to non-negative counts.", "quantifier": "every response matrix, counts vector and number of extra bins", "why_tests_cant": "matrix algebra over all dimensions", "anchors": ["src/Drm.cxx: convolve, compute_transpose"]}
{"id": "C133", "title": "Spectral derivatives: LogNormal, ExpCutoffSEDPeak, EblAtten, PiecewisePowerLaw", "statement": "For LogNormal, ExpCutoffSEDPeak, EblAtten and PiecewisePowerLaw, derivByParam(x, p) is the partial derivative of value(x) with respect to the (unscaled) parameter p, for all parameter values, scales and energies in the domain.", "quantifier": "all real parameter values, scales and energies in the stated domain", "why_tests_cant": "calculus identities over the reals; finite difference tests sample points and tolerate scale factor errors when scale = 1", "anchors": ["src/PowerLaw2.cxx", "src/LogParabola.cxx", "src/LogNormal.cxx", "src/ExpCutoffSEDPeak.cxx", "src/ScaleFactor.cxx", "src/PiecewisePowerLaw.cxx: derivByParamImp"]}
{"id": "C135", "title": "Spectral derivatives: other broken power laws and the Band function", "statement": "For BrokenPowerLaw2, SmoothBrokenPowerLaw, SmoothDoubleBrokenPowerLaw, MultipleBrokenPowerLaw and BandFunction, derivByParam is the partial derivative of value away from the break.", "quantifier": "all real parameter values, scales and energies in the stated domain", "why_tests_cant": "piecewise formulas have many branch combinations; scale factors other than 1 are rarely tested", "anchors": ["src/BrokenPowerLaw2.cxx", "src/BrokenPowerLaw3.cxx", "src/SmoothBrokenPowerLaw.cxx", "src/SmoothDoubleBrokenPowerLaw.cxx", "src/MultipleBrokenPowerLaw.cxx", "src/BandFunction.cxx"]}
{"id": "C136", "title": "BrokenPowerLaw3's Integrals and the spectra's own integrals", "statement": "For BrokenPowerLaw3 each Integral is the integral over its limits; the integral(xmin,xmax) of PowerLaw2, BrokenPowerLaw2 and BrokenPowerLaw3 is the integral of value for every sub-range.", "quantifier": "all admissible parameters", "why_tests_cant": "a statement about a real integral for all parameters", "anchors": ["src/PowerLaw2.cxx: value, integral", "src/BrokenPowerLaw2.cxx: value, integral, N0_value", "src/BrokenPowerLaw3.cxx: integral"]}
{"id": "C137", "title": "BPLExpCutoff and PLSuperExpCutoff4 are continuous across their breaks", "statement": "BPLExpCutoff and PLSuperExpCutoff4 have no jump at a break energy (or where the formula changes).", "quantifier": "all admissible parameters and every break", "why_tests_cant": "needs exact evaluation at each break for all parameters", "anchors": ["src/MultipleBrokenPowerLaw.cxx: value, norm", "src/PiecewisePowerLaw.cxx: value, norm, plIndex", "src/BandFunction.cxx: value", "src/ExpCutoff.cxx: value", "src/BrokenPowerLawExpCutoff.cxx: value"]}
{"id": "C138", "title": "Gaussian priors after parameter changes, and their parameter derivatives", "statement": "The value of LogGaussian is the logarithm of the normal distribution of its current parameters after any change, and derivByParam of LogGaussian and GaussianError gives the parameter derivatives of the value.", "quantifier": "all parameter values and arguments", "why_tests_cant": "calculus identities over all reals", "anchors": ["src/LogGaussian.cxx", "src/GaussianError.cxx"]}
{"id": "C139", "title": "Derivatives of the predicted counts and of the model counts of a pixel", "statement": "If the spectrum's derivByParam is the derivative of the spectrum, then Source::NpredDeriv and OneSourceFunc::derivByParam are the derivatives of Npred and the one-source likelihood; likewise Pixel::getFreeDerivs for Pixel::modelCounts.", "quantifier": "every spectrum, exposure, energy grid, parameter, event list and weights", "why_tests_cant": "quantifies over all spectra and grids", "anchors": ["src/Source.cxx: Npred, NpredDeriv, pixelCounts, pixelCountsDeriv", "src/OneSourceFunc.cxx: value, derivByParamImp", "src/Pixel.cxx: modelCounts, getFreeDerivs"]}
{"id": "C141", "title": "Source map cache through all histories", "statement": "After any sequence of getSourceMap, insertSourceMap, removeSourceMap, eraseSourceMap and rebuilding calls, each name has at most one map, and a map is never freed while in the cache nor freed twice nor used after it was freed.", "quantifier": "every history of calls", "why_tests_cant": "double free / leak is a history property", "anchors": ["src/SourceMapCache.cxx: getSourceMap, insertSourceMap, removeSourceMap, eraseSourceMap"]}
{"id": "C142", "title": "Map library through all histories", "statement": "Through any history every map in use is live, is the library's for its file and extension, and is the one read from the file and extension last given to the object; after delete_map all registered observers have been told to drop the deleted map.", "quantifier": "every history of wcsmap, delete_map (by name or pointer), add_observer and remove_observer calls", "why_tests_cant": "dangling pointers depend on the call history", "anchors": ["src/WcsMapLibrary.cxx: wcsmap, delete_map, has_map, notify"]}
{"id": "C146", "title": "Weighted and undispersed plane totals agree with the model map", "statement": "The weighted totals of an energy plane that enter the likelihood equal the sum of weight times model map, and the undispersed totals are those of the plane's own true-energy bin.", "quantifier": "every source map, storage type, spectrum, weights and dispersion setting", "why_tests_cant": "two independent summation orders (per pixel, per plane) must agree for all maps and responses", "anchors": ["src/SourceMap.cxx: computeNpredArray, computeNpredArray_sparse", "src/FitUtils.cxx: addFixedNpreds, npred_contribution, npred_edisp, updateModelMap"]}
{"id": "C155", "title": "Indices of SmoothBrokenPowerLaw", "statement": "Index1 is the logarithmic slope of SmoothBrokenPowerLaw far below its break and Index2 the one far above it.", "quantifier": "all parameter values in the physical range and all energies", "why_tests_cant": "statements about slopes, limits and maxima over all energies and parameter values", "anchors": ["src/LogParabola.cxx: value", "src/ExpCutoffSEDPeak.cxx: value", "src/PLSuperExpCutoff.cxx: value", "src/PLSuperExpCutoff3.cxx: value", "src/PLSuperExpCutoff4.cxx: value", "src/SmoothBrokenPowerLaw.cxx: value", "src/MultipleBrokenPowerLaw.cxx: value", "src/PiecewisePowerLaw.cxx: value"]}
{"id": "C156", "title": "Every source map used shows the present source", "statement": "The source map used for a source in a fit shows the source that is in the model under that name, at the position or with the spatial distribution it has now, whatever sources were added, moved or deleted before.", "quantifier": "every history of adding, deleting, replacing and moving sources, of loading, rebuilding and saving maps, and every content of the source map file", "why_tests_cant": "maps are kept by name over the life of the analysis; a stale map shows only after particular sequences of calls", "anchors": ["src/SourceMapCache.cxx: getSourceMap, loadSourceMap", "src/SourceMap.cxx: setSource, resetSourceData", "src/BinnedLikelihood.cxx: addSource, deleteSource"]}
{"id": "C157", "title": "The complement form of a scaled spectrum", "statement": "In the complement form, whose factor must lie between 0 and 1, the result of ScaleFactor is never negative and never more than the wrapped spectrum; the form is accepted exactly for such factors, and a refused call changes nothing.", "quantifier": "all energies, factors, wrapped spectra, and histories of setting parameters and flags, copying and assigning", "why_tests_cant": "depends on the history of parameter, bound and flag changes on several objects that share parameters by reference", "anchors": ["src/ScaleFactor.cxx: value, derivByParamImp, prefactor, check_complement_usage, setParam", "Likelihood/ScaleFactor.h: set_complement_flag"]}
{"id": "C158", "title": "Predicted counts over a part of the grid", "statement": "Source::Npred(emin, emax) integrates the spectrum times the exposure over the intersection of [emin, emax] with the source's energy grid: over a part the energies run from the lower to the upper limit and every exposure lies on the log-linear interpolation of the grid's exposures; the result is not negative for a non-negative spectrum and exposure, and a range outside the grid gives no counts.", "quantifier": "every energy grid, exposure, spectrum and range", "why_tests_cant": "quantifies over all grids and ranges, in particular non-uniform grids and ranges beyond the ends", "anchors": ["src/Source.cxx: Npred, NpredDeriv, getExposureArrays", "src/PointSource.cxx: computeExposure", "src/RoiCuts.cxx: makeEnergyVector"]}
{"id": "C160", "title": "Spacecraft data: order, other times and exposure", "statement": "Start times of the intervals read never decrease; times that the data do not cover are refused. The exposure of a point source at an energy is the sum over all intervals of effective area, livetime, good-time fraction and efficiency.", "quantifier": "all spacecraft files, all times in the covered range and its tolerance, all GTIs, cuts, energies and source directions", "why_tests_cant": "Look-up by time depends on where a time falls relative to arbitrarily many intervals and gaps, and the sum has a data-dependent upper limit.", "anchors": ["src/ScData.cxx: readData, time_index, livetimefrac, xAxis, zAxis", "src/PointSource.cxx: computeExposure"]}
{"id": "C161", "title": "Region-of-interest cuts set again, and accepted events", "statement": "Reading or setting cuts replaces the ones from before and sets both time limits. An event is accepted exactly if it lies in some GTI, in every time range, in the energy range, in the region and above the zenith limit. The strict check of two sets of cuts does not depend on their order.", "quantifier": "all selections found in files, all sequences of reading and setting, all events, all energy ranges", "why_tests_cant": "The outcome depends on every combination of good times, time ranges and event times and on the history of reads, which a test samples at a few points.", "anchors": ["src/RoiCuts.cxx: readCuts, setCuts, addTimeInterval, sortCuts, setRoiData, accept, makeEnergyVector, getGtis, getTimeCuts"]}
{"id": "C162", "title": "Shared parameters of composite likelihoods", "statement": "For a CompositeLikelihood: setFreeParamValues followed by fetchParamValues returns the vector that was set; afterwards the shared shape parameters have one value in all components and every fixed parameter is unchanged; getFreeDerivs lists the partial derivatives of value() with respect to that vector; the full parameter list holds every parameter of every component.", "quantifier": "every number of components, sources and parameters, every pattern of free parameters, every vector of values and every order of calls", "why_tests_cant": "three groups of parameters from different objects are interleaved in one vector; the slot of a derivative depends on the free flags of every component", "anchors": ["src/CompositeLikelihood.cxx: addComponent, getFreeParams, setFreeParamValues, getNumFreeParams, getFreeDerivs, syncParams, value", "src/BinnedLikelihood.cxx: syncParams, getFreeDerivs"]}
{"id": "C163", "title": "Snapshots report changes under the right flags and sources added or removed", "statement": "Each change since the snapshot is reported under the flag named for it; sources added and removed are reported as such; and the fit scanner recomputes exactly the parts of its cache that the changes affect.", "quantifier": "all pairs of models (any number of sources, parameters, priors), all sets of template sources", "why_tests_cant": "the status is a 30-bit mask combined over every source; exactness has to hold for every combination of changes, and overlap of shifted bits or swapped flags only shows for particular combinations", "anchors": ["Likelihood/Snapshot.h: Snapshot_Status", "src/Snapshot.cxx: Snapshot_Source::compare, Snapshot::latch_model, compare_source, compare_model, compare_latched", "src/FitScanner.cxx: FitScanCache::find_action_needed"]}
{"id": "C164", "title": "Bins of merged analyses lie in their layers and energy ranges", "statement": "For a fit scanner built on a sum of binned analyses, each bin of a component lies between the edges of its layer, and restricting the energy range restricts each component to the same range.", "quantifier": "all numbers of components, energy grids, pixel numbers, values, functions summed, and energy ranges", "why_tests_cant": "tests use one or two components with equal grids; the merging must be right for every combination of grids and pixel numbers", "anchors": ["src/FitScanner.cxx: FitScanModelWrapper_Summed::findMinAndMatches, mergeVectors, FitScanModelWrapper_Summed constructor, set_klims", "Likelihood/FitScanner.h: FitScanModelWrapper_Summed"]}
{"id": "C165", "title": "The fit scanner's cache through all histories", "statement": "The cache of the fit scanner stays that of the model after any sequence of model changes followed by an update of the cache, of fits, and of putting in, taking out or replacing the test source; none of these steps fails; remaking the fit at the current parameters leaves the prediction as it is; a rebuild gives the cache of the new model.", "quantifier": "all sets of sources, numbers of bins, normalisations, histories of model changes, fits and test sources", "why_tests_cant": "tests update the cache once or twice after one kind of change; the cache must follow the model through every history", "anchors": ["src/FitScanner.cxx: FitScanCache constructor, update_with_action, setCache, refactorModel, getParScales, addTestSourceToCurrent, removeTestSourceFromCurrent, setTestSource, update_template_for_source, build_from_model, get_status_and_scales", "src/FitUtils.cxx: extractModels, extractFixedModel, refactorModels"]}
{"id": "C166", "title": "Averaged point spread function: integrals between energies, energies above the grid, no exposure", "statement": "The integral equals that of the interpolated profile over the cone at every energy, energies off the grid are refused, and every fraction has a containment angle also where there is no exposure.", "quantifier": "all energy grids, responses, exposures, positions, energies, angles and fractions, and all sequences of constructions in one process", "why_tests_cant": "tests look at a few angles of one response set; normalisation and inversion must hold for every table the responses can produce, including positions without exposure and energies at the ends of the grid", "anchors": ["src/MeanPsf.cxx MeanPsf::init, computePsfInts, integral, containmentRadius, derivative, operator()", "Likelihood/MeanPsf.h"]}
{"id": "C167", "title": "Look-ups and files of binned exposure maps", "statement": "A look-up in a binned exposure map returns the entry of the pixel the direction falls into and of the nearest energy, a look-up off the map gives zero when boundaries are not enforced, and the single look-up and the look-up of all energies agree; writing the map to a file and reading it back changes no look-up, and the map can be written again.", "quantifier": "all projections, map sizes, energy lists, response functions, exposures, directions and requested energies", "why_tests_cant": "tests compare a few directions inside one map; the layout and the boundary behaviour must hold for every size, projection and direction, including those just off the map and files whose projection is rotated or centred elsewhere", "anchors": ["src/BinnedExposure.cxx BinnedExposure::computeMap, operator(), get_exposures_for_dir, setMapGeometry, writeOutput", "src/BinnedExposureBase.cxx findNearest, setCosThetaBounds, Aeff::value"]}
{"id": "C168", "title": "All-sky maps, plane indices, maps of one plane, and integrals next to zeros", "statement": "A map all around the sky is recognised whatever the sign of its column width and is looked up in the right column for every coordinate; only indices of existing planes are accepted; maps of one plane have a value at every energy; integrals are defined next to zeros; the product with an exposure keeps just the energies it has planes for.", "quantifier": "all map sizes, pixel values, energies, flags and directions (pixel coordinates)", "why_tests_cant": "tests look up a few pixels of one file; the claims range over every coordinate, including the seam of an all-sky map, the half-pixel border, missing planes and zero values", "anchors": ["src/WcsMap2.cxx WcsMap2::operator(), pixelValue, insideMap, convolve", "src/ProjMap.cxx ProjMap::mapIntegral, interpolatePowerLaw, check_energy_index, check_energy"]}
{"id": "C169", "title": "Sky maps made from counts, with holes, all around the sky or at a pole", "statement": "Maps made from counts keep the solid angle of each pixel whatever their shape; pixels off the sky give defined intensities and means; a rebinned map wraps around the sky only if its columns do; the closest pixel to a direction inside the map is at distance zero; the solid angle of a pixel at the pole is right; a factor of zero is refused.", "quantifier": "all map sizes, pixel values, solid angles, energies and rebinning factors", "why_tests_cant": "a test rebins one map by one factor; the claims range over every size and factor, including those that do not divide, oblong maps, pixels off the sky and at the pole", "anchors": ["src/WcsMap2.cxx foldVector, fillSolidAngles, convertToDifferential, convertToIntegral", "src/WcsMap2.cxx WcsMap2::WcsMap2, solidAngle, solidAngles, computeMapIntegrals, rebin, minMaxDistPixels, getCorners, check_negative_pixels"]}
{"id": "C170", "title": "Extended sources after later changes, and tables with repeated or few abscissae", "statement": "A profile has a value wherever its file was accepted, is never negative for a non-negative table and is integrated over all the sky; it follows its parameters also after its first evaluation, and objects assigned are equal. A disk or a Gaussian follows parameters set as a vector and stays where it was moved; its limits of integration hold the whole source; its integral over the sphere is one. The radius and reference direction of a diffuse source follow its shape.", "quantifier": "all tables, offsets, directions, sizes and histories of commands", "why_tests_cant": "a test evaluates a few offsets of one template; repeated abscissae, offsets beyond the table, a centre moved before or after the first evaluation, parameters re-read from a file and cones that reach around the sky are other histories and other inputs", "anchors": ["src/RadialProfile.cxx: valueAtOffset, value, setCenter, readTemplateFile, angularIntegral", "src/SpatialFunction.cxx: setCenter, setParams, update", "src/RadialDisk.cxx, src/RadialGaussian.cxx: value, convolve, getDiffRespLimits", "src/SkyDirFunction.cxx: setParam", "src/DiffuseSource.cxx: moveSource, mapRefDir, angularIntegral, computeMapRadius"]}
{"id": "C171", "title": "Position angles and limits of diffuse response integrals", "statement": "Every direction on the sphere has a defined source direction and position angle, and for an event outside a map the range of position angles holds those of all corners of the map.", "quantifier": "all directions of events and all lists of corners", "why_tests_cant": "the angles wrap at 180 degrees, and which corners wrap depends on the direction of the event", "anchors": ["src/DiffRespIntegrand.cxx: getSrcDir, phiValue", "src/MapBase.cxx: getDiffRespLimits_wcs"]}
{"id": "C172", "title": "Point source maps for every range, map and argument", "statement": "The map of a point source is defined for every range of energies, every size of map, every pixel and every setting; it depends on the source, the map and the energies only and not on what the vector passed in holds; and it holds the exposure at the layer's own energy for a source that is not convolved, on every kind of map.", "quantifier": "all ranges, maps, settings and vectors passed in", "why_tests_cant": "the failing cases need a partial range, a map of one row, a pixel off the sky or a vector that is used twice; the usual calls never meet them", "anchors": ["src/PSFUtils.cxx: makePointSourceMap_wcs, makePointSourceMap_healpix, psfValue_annular, get_index_and_remainder", "src/SourceMapCache.cxx: fillSingleSourceMap"]}
{"id": "C173", "title": "Every model survives XML files, and failures leave no trace", "statement": "Every model that can be built can be written and read back, and read again from its own file, with all its settings; a file that cannot be read in full is reported and leaves the model as it was; positions and energies are restored however small the change; the exposure is computed only if the caller asks for it; the flux simulation file holds the spectrum of each source.", "quantifier": "all models and files", "why_tests_cant": "the failing cases need a composite, a flag that is off, a quote in a name, a name that clashes, a tiny move or a rare function; the usual models have none", "anchors": ["src/SourceModelBuilder.cxx: spectralPart, addSpatialPart", "src/SourceFactory.cxx: makeSources, makePointSource, setSpectrum", "src/SourceModel.cxx: readXml, reReadXml", "src/FluxBuilder.cxx: addSource", "src/AppHelpers.cxx: addFunctionPrototypes"]}
{"id": "C174", "title": "Vectors, maps, spectra and files of source maps: where the claims fail", "statement": "Whatever was asked before, a source map can be added to any vector of the right size and taken away again, a model map does not depend on what the vector held, maps that are to be kept are kept, a counts spectrum can be asked for all planes, and saved maps are found again.", "quantifier": "all maps, vectors, plane ranges, caches, fit ranges and numbers of sources", "why_tests_cant": "the failures need a parameter change between two calls, a filled first pixel after the range, a reused vector, a restricted fit range, 500 sources or the empty file name", "anchors": ["src/SourceMap.cxx: addToVector_full, addToVector_sparse, subtractFromVector_full, subtractFromVector_sparse", "src/SourceMapCache.cxx: computeModelMap, getSourceMap, saveSourceMaps", "src/BinnedLikelihood.cxx: countsSpectrum, saveSourceMaps"]}
{"id": "C175", "title": "The fit by expectation maximisation: where the claims fail", "statement": "The EM fit never lowers the log-likelihood when the optimizer finds the best parameters of every source, it always ends, its tolerance is the chi-squared value of cumulative probability 0.683, and after it the parameters and the log-likelihood of the object are those of the fitted sources.", "quantifier": "all models, data sets and optimizers", "why_tests_cant": "the failures need a source that is faint in every event, a flux density driven below the cut-off, no events, thousands of free parameters, or a second use of the object after the fit", "anchors": ["src/OptEM.cxx: findMin, chifunc", "src/OneSourceFunc.cxx: value"]}
{"id": "C176", "title": "Exposure of diffuse sources: where the claims fail", "statement": "The exposure of a diffuse source is not negative, exists for every exposure map, does not depend on which of the two ways of integrating is chosen, scales with the normalisation of the source's map, stays consistent with the energies when a calculation fails, and a computed exposure map is centred on the region of interest.", "quantifier": "all exposure maps, source maps, normalisations and energies", "why_tests_cant": "the failures need energies outside the map, a map of one energy, a dark plane, a normalisation other than one, a HEALPix template of one plane, or an odd number of pixels", "anchors": ["src/ExposureMap.cxx: integrateSpatialDist, computeMap", "src/MapBase.cxx: interpolatePowerLaw", "src/MapCubeFunction2.cxx: integrateSpatialDist_wcs, value", "src/SpatialMap.cxx: integrateSpatialDist_healpix", "src/HealpixProjMap.cxx: operator()", "src/DiffuseSource.cxx: computeExposure"]}
{"id": "C177", "title": "Counts maps: where the claims fail", "statement": "Weights and effective backgrounds exist for every map and are positive; a map of a range of energies holds the counts of that range and can be used and written; the energy step in the header is that of the bins; a map conforms only if it is centred; a pixel whose centre is on the sky has that place; a HEALPix map counts events, can be copied, made from an intensity map, convolved on part of the sky and written as a weights map.", "quantifier": "all counts maps, energy ranges, lists of events and HEALPix regions", "why_tests_cant": "the failures need small maps, maps of unequal size, negative contents, a range of energies, pixels at the edge of the sky, or a HEALPix map of part of the sky", "anchors": ["src/CountsMapBase.cxx: fillEnergyBinWidths, getAlphaVector, getAlphaWts, getWts, sub-range constructor", "src/CountsMap.cxx: init, checkMapConforms, setKeywords, getPixels", "src/CountsMapHealpix.cxx: binInput, withinBounds, makeBkgEffMap, copy constructor, writeAsWeightsMap"]}
{"id": "C178", "title": "Composite sources: where the claims fail", "statement": "The density of a composite with a cached response is its spectrum times the sum over its members; its derivative by its own normalisation is the derivative; its flux is that of its members; its predicted counts exist; merging and splitting lose no source and no image, and a new composite gets its own map.", "quantifier": "all composites, models and histories of merging and splitting", "why_tests_cant": "the failures need two point sources with different responses, a parameter name shared between composite and members, a map not loaded yet, a reused name, or an image set by the user", "anchors": ["src/CompositeSource.cxx: fluxDensity, fluxDensityDeriv, flux, computeExposure, steal_source, give_source", "src/SourceModel.cxx: mergeSources, splitCompositeSource", "src/SourceMapCache.cxx: getSourceMap, removeSourceMap"]}
{"id": "C179", "title": "Counts spectra: where the claims fail", "statement": "Any number of bounds and any order of emin and emax gives usable bins or an error; a failed write leaves the file that was there; the counts of a source at all energies exist while the fit is limited to some.", "quantifier": "all numbers of bounds, energy ranges, files and energy limits", "why_tests_cant": "the failures need degenerate numbers of bounds, reversed ranges, an exception while writing, or limited energies", "anchors": ["src/CountsSpectra.cxx: setEbounds, writeTable, check_ebounds", "src/BinnedLikelihood.cxx: countsSpectrum"]}
{"id": "C180", "title": "Scans of a normalisation: where the claims fail", "statement": "A scan leaves the model as it was, or at the best values; its range is set by the standard deviation of the normalisation; it works for any bounds; limits of the energies afterwards are those of the whole range, and in a sum of likelihoods each part gets the range asked for; an unknown source is reported; the values of a scan differ.", "quantifier": "all models, bounds, energy ranges and sums of likelihoods", "why_tests_cant": "the failures need a second free parameter, tight bounds, use of the likelihood after a scan, or sums of likelihoods", "anchors": ["src/ScanUtils.cxx: scan_norm_binned, sed_binned", "src/FitScanner.cxx: FitScanModelWrapper_Summed::set_klims"]}
{"id": "C181", "title": "HEALPix sky maps: where the claims fail", "statement": "Only the columns with the energies of a file are used and the energy of a file with one plane is read; a map with one plane can be used at all energies; an index out of range is refused; values are never negative; the result for one plane can be used as a map; the resolution is doubled for the convolution only if the pixels are too large; rebinning by a factor divides nside by it, and the map stays consistent.", "quantifier": "all files, energies, indices, pixel sizes, nside and factors", "why_tests_cant": "the failures depend on the columns of the file, the number of planes, and the relation between nside and the factor", "anchors": ["src/HealpixProjMap.cxx: constructor, operator(), convolve, rebin, pixelValue", "src/ProjMap.cxx: check_energy_index"]}
{"id": "C182", "title": "Priors, errors and scans of the fit scanner: where the claims fail", "statement": "A covariance can constrain a subset of the parameters; a global prior can be made after a local one; priors of the last fit can be made with fixed sources; at the errors the log-likelihood has dropped by delta, and they are set for every variance; a scan uses the prior of the fit and works with models that are not reduced; the prior of a source is used whatever its reference value.", "quantifier": "all sets of constrained parameters, numbers of fixed sources, variances, priors and reference values", "why_tests_cant": "the failures depend on which sources are fixed, which priors were made before and on the size of the numbers", "anchors": ["src/FitScanner.cxx: FitScanMVPrior::latchReducedMatrix, FitScanCache::buildPriorsFromExternal, buildPriorsFromCurrent, scanNormalization, signalUncertainty_quad, extract_init_priors_from_model"]}
{"id": "C183", "title": "Maps, matrices and parameters written to files: where the claims fail", "statement": "A partial source map is saved; a map or sparse map written over another one replaces it; sparse source maps with energy dispersion are saved; a row that cannot be read leaves the others alone; energy bins are read as they are; a response matrix read from a file acts like the one written; parameters written to a table can be read into the model; sources with long names are told apart; a map can be written as a weights map.", "quantifier": "all maps, earlier contents of the file, energies, matrices and models", "why_tests_cant": "the failures depend on the earlier content of the file, on the sizes and on the names", "anchors": ["src/FileUtils.cxx: read_ebounds_to_vector, read_healpix_table_to_sparse_vector, replace_image_from_float_vector_wcs, replace_image_from_float_vector_healpix, replace_image_from_sparse_vector_healpix, read_parameters_from_table, read_drm_from_table", "src/Drm.cxx: Drm::Drm, Drm::compute_transpose", "src/CountsMapHealpix.cxx: CountsMapHealpix::writeAsWeightsMap", "src/SourceModel.cxx: SourceModel::getParam, SourceModel::setParam"]}
{"id": "C184", "title": "The checks of data selections by the tools: where the claims fail", "statement": "Files of different times are refused, and the reported differences show it; data without energy cuts are accepted; a counts map is accepted exactly if the exposure map covers it; the event types asked for are used; the event class of an unbinned analysis is that of its events; an exposure map can be left out with none; every event class has a response.", "quantifier": "all good time intervals, selections, images, parameters and event classes", "why_tests_cant": "the failures depend on the selections in the files and on the projection", "anchors": ["src/AppHelpers.cxx: checkTimeCuts, checkExpMapCuts, checkExposureMap_wcs, createResponseFuncs, responseFuncs"]}
{"id": "C185", "title": "Sums of livetime cubes, source probabilities and response functions of events: where the claims fail", "statement": "If gtltsum fails the output is as before, and its two tables are always of the same data; no livetime is longer than the file's time; every row of gtsrcprob gets the probability of its own event; gtsrcprob succeeds for every event file; unknown names are refused; the events' columns are kept; names that differ in case are different; every event has probabilities; events of the file have response functions; every event has a type.", "quantifier": "all livetime cubes, event files, models, source lists and event types", "why_tests_cant": "the failures need special files, names or selections", "anchors": ["src/gtaddlivetime/gtaddlivetime.cxx: run, addTables", "src/gtsrcprob/gtsrcprob.cxx: readEventData, writeDensities", "src/EventContainer.cxx: getEvents"]}

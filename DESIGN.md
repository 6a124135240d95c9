# Formal model of fermi-lat/Likelihood in Rocq (Coq 8.16.1)

## 1. Approach

The C++ code in /repo is read as text and re-expressed, function by function,
as total computable Gallina functions (files `*Model.v`). Every definition
carries a comment citing the file and lines it models and the simplifications
made. Properties are stated in `*Props.v` files: the theorems `Cnn_...`, each followed by
`Print Assumptions`, and `Example`s `Cnn_case...` showing that a concrete case meets the
hypotheses. Lemmas live in the other files of the cluster. Independent specifications
live in `*Spec.v` files or at the top of the `Props` file.

Conventions
* Undefined behaviour (out-of-bounds access, dangling pointer, division by a zero integer, use of an
  uninitialised value) is an explicit outcome `UB`; a C++ exception is an explicit
  outcome `Throw` carrying the state left behind when that is observable (`Base.v`).
* Numbers. Three carriers are used, depending on what the property needs:
  (a) an arbitrary type with arbitrary operations (no laws) where the property is about
  data movement only -- those theorems hold for IEEE doubles bit for bit;
  (b) a commutative ring or ordered field / `Z` / `Qc` / `R` for "in exact arithmetic" algebraic laws;
  (c) the reals `R` for calculus (derivatives, integrals). Rounding is not modelled in (b) and (c), with
  the exceptions listed in section 4.
* Real-valued code is modelled with partial operations: division by zero, log of a
  non-positive number, pow of a non-positive base, return `None` ("not a finite number"), so no theorem is true
  because of a totalised default.
* `std::map` iteration is in key order: modelled by association lists strictly sorted by
  key, with a generic total order on names (instantiated to `nat` or `string` in examples).
* External functions (spectrum functions in a container, instrument response, linear
  solver, optimizer) are universally quantified function arguments.
* Where the code violates a property a theorem `..._refuted` exhibits a witness, and the
  finding is listed in section 5; what does hold is proved next to it.

## 2. Plan per property

| id | model | proof idea |
|----|-------|-----------|
| C01-C03 | SparseVector: size, null, sorted (index,value) list | refinement to a dense function nat -> T, induction over op lists |
| C04 | Kahan and binned accumulator over a ring / ordered field with arbitrary bin function | invariant: sum of partial sums - compensation = sum so far |
| C05, C06 | HistND: per-axis edges, strides, flat data | mixed-radix addressing is injective; slices by index arithmetic |
| C07 | TrapQuad over R | induction over the node list, Coquelicot integral for log rule |
| C08-C12, C24 | FitUtils vector code on lists | list induction, ring |
| C13 | FitUtils gradient/Hessian over R | Coquelicot is_derive of sums |
| C14 | fitNorms_newton control loop with arbitrary solver | loop invariant on fuelled recursion |
| C15-C17 | SourceModel: sorted map name -> source | refinement to finite map, conservation by permutation |
| C18-C20 | Composite2, SummedLikelihood, TiedParameter | index bookkeeping, induction over components |
| C21, C22 | BinnedCountsCache | CSR invariant, induction over planes |
| C23 | BinnedLikelihood cache state machine | invariant over op histories, refutations for missing invalidations |
| C25, C26 | Event model sum, LogLike npred cache | invariant over op histories |
| C27 | EventContainer::nobs | upper_bound specification |
| C28 | DiffRespNames with decimal printing/parsing | round trip via NilEmpty decimal strings |
| C29 | EventSourceCache | refinement to a total map with default |
| C30, C31 | Drm | list algebra |
| C32 | PowerLaw2 cache automaton | invariant: each cached quantity is the function of its key |
| C33-C38 | each spectral function over R | auto_derive + field, stated with stdlib `derivable_pt_lim` |
| C39 | Source/Pixel quadrature | linearity of the derivative |
| C40-C42 | EnergyBand, SourceMapCache, WcsMapLibrary | invariants over histories |
| C43 | SparseVector::resize | refinement to a list |
| C44, C45 | FitScanCache energy bins; fitNorms_newton | index arithmetic on layers; loop invariant |
| C46-C49 | SourceMap and BinnedLikelihood plane totals, gradient, fixed/free, energy dispersion switch | sums over pixels and planes, Coquelicot derivatives, invariants |
| C50-C53 | unbinned LogLike: best fit, gradient, event contributions, source probabilities | invariants over histories, refinement to a specification state |
| C54 | EventContainer and diffuse response columns | round trip through a table |
| C55 | spectral functions: meaning of the parameters | limits and characterising equations over R |
| C56 | SourceMapCache: the map of a source | invariant with the source's position |
| C57 | ScaleFactor | algebra over R, state machine of the bounds |
| C58 | Source: predicted counts in part of the range | quadrature sums over sub-grids |
| C59, C60 | LikeExposure, ScData, PointSource::computeExposure | interval measure, table look-up, sums over rows |
| C61 | RoiCuts | refinement to a selection predicate |
| C62 | CompositeLikelihood | index bookkeeping over components, Coquelicot derivatives |
| C63 | Snapshot and find_action_needed | bit vectors, comparison lists |
| C64 | FitScanModelWrapper_Summed | merge invariant, permutation of the bins |
| C65 | FitScanCache | invariant over histories of model changes, fits and test sources |
| C66 | MeanPsf: averaged point spread function | reachable shared grid, piecewise-linear integrals with Coquelicot |
| C67 | BinnedExposure: map, look-ups, file | table as a function of the projection, loops by induction; file as a record |
| C68 | WcsMap2, ProjMap: look-up of a sky map | image as nested lists, pixel coordinates as given by the projection; case analysis over cells and energies |
| C69 | WcsMap2: filling, integrals, rebinning | nested lists with reads beyond the end undefined, solid angles and directions external; induction over the nested loops, exchange of sums |
| C70 | RadialProfile, SpatialFunction, RadialDisk, RadialGaussian, SkyDirFunction and their use by DiffuseSource | tables over the reals, directions and their separation external; invariants over histories of commands, integrals with Coquelicot, plane geometry of rings and disks |
| C71 | EquinoxRotation, DiffRespIntegrand(2), MapBase::getDiffRespLimits, DiffuseSource::diffuseResponse_wcs | unit vectors over the reals, ra and dec any reading of the angles, quadrature and response external; trigonometry in an orthonormal frame, induction over corners and pixels |
| C72 | PSFUtils.cxx (point sources), ConvolveHealpix::fillMapWithPSF_refDir, Pixel::find | the vector of the map with unchecked indexing; arbitrary separations, PSF and exposure; loop invariants over pixels and energies, real arithmetic |
| C73 | SourceModelBuilder, SourceFactory, SourceModel::readXml/reReadXml/writeXml, FluxBuilder, addFunctionPrototypes | documents as trees, printer and parser on strings; round trip by induction on trees and sources; maps of sources as sorted lists |
| C74 | SourceMap.cxx addToVector/subtractFromVector; SourceMapCache.cxx computeModelMap, fillSummedSourceMap, saveSourceMaps; BinnedLikelihood.cxx countsSpectrum, saveSourceMaps | loops over planes, pixels and sparse entries; a cache of maps; files as extension lists; invariants over the loops and over the list of sources |
| C75 | Loops over matrices of weights; Jensen's inequality through ln x <= x - 1; loop invariant over rounds; Coquelicot derivatives |
| C102, C104, C106, C116, C119, C128, C130, C133, C135, C136, C137, C138, C139, C141, C142, C146, C155, C156, C157, C158, C160, C161, C162, C163, C164, C165, C166, C167, C168, C169, C170, C171, C172, C173, C174, C175, C176, C177, C178, C179, C180, C181, C182, C183, C184, C185 | the same code as the property with the same last two digits | the same model. A property that bundles several claims is split in two: Cnn holds the claims that are proved in full, C1nn those that the code violates or that are proved under extra conditions (theorems with the suffixes _refuted and _partial). Together they say what the property said before it was split |

## 3. What is modelled and what is not

Lines cited by the definitions of the model (number of lines of the file in brackets):

| file | modelled in | lines |
|---|---|---|
| src/Accumulator.cxx (79) | AccumModel | 19-20, 20, 22-44, 46-64, 66-77 |
| Likelihood/Accumulator.h (119) | AccumModel, UnbinModel | 20-23, 28-38, 29-50, 41-46, 48-51, 85-109, 87, 88-95, 96-104 |
| src/AppHelpers.cxx (1156) | CutModel, LtpModel, XmlModel | 88-112, 89-102, 221-353, 371-407, 430-595, 430-547, 440-471, 539-547, 570-587, 603-655, 603-913, 657-713, 715-730, 732-769, 771-813, 815-855, 843-848, 857-895, 941-1016, 951-959, 961-1009, 968-995 |
| Likelihood/AppHelpers.h (257) | CutModel, LtpModel | 220 |
| src/BandFunction.cxx (151) | SpecBrkModel | 56-79, 81-149 |
| Likelihood/BinnedConfig.h (238) | PsfuModel | 25-31, 37-57 |
| src/BinnedCountsCache.cxx (211) | CountsModel, CspModel | 21-44, 21-85, 51-57, 59-74, 82-85, 105-209, 112-127, 129-146, 153-168, 170-209, 170-190, 170-191, 192-209, 193-209 |
| Likelihood/BinnedCountsCache.h (211) | CountsModel, SmapModel |  |
| src/BinnedExposure.cxx (392) | BexpModel | 40-58, 50-56, 60-70, 72-99, 104-138, 118-119, 141-182, 248-317, 290-302, 319-390 |
| Likelihood/BinnedExposure.h (103) | BexpModel | 80-95, 82-93 |
| src/BinnedExposureBase.cxx (126) | BexpModel | 39-58, 85-100, 108-117, 119-124 |
| Likelihood/BinnedExposureBase.h (138) | BexpModel | 44-46, 81-83, 103-123 |
| src/BinnedLikelihood.cxx (1203) | BinnedModel, CmpModel, CompoModel, CspModel, NscModel, SmapModel, SmcModel, VmapModel | 112-141, 148-203, 160-203, 165, 168-185, 170-172, 205-257, 205-231, 213-216, 213, 243-255, 275-277, 294-304, 300-304, 323-382, 323-339, 323-340, 333-336, 352-372, 374-376, 378-382, 433-456, 440-451, 453-457, 459-486, 534-592, 558-560, 562-575, 577-588, 577-591, 589, 685-790, 685-728, 732-790, 850-854, 864-902, 935-966, 939-944, 993-995, 1021-1055, 1021-1063, 1057-1063 |
| Likelihood/BinnedLikelihood.h (806) | BinnedModel, NscModel | 198-200, 205-210, 225-233 |
| src/BrokenPowerLaw2.cxx (244) | SpecBrkModel, SpecIntModel | 38-56, 58-178, 83-104, 111-115, 117-118, 133-137, 139-140, 150-162, 180-216, 218-242 |
| src/BrokenPowerLaw3.cxx (233) | SpecBrkModel, SpecIntModel | 43-59, 61-150, 106-110, 126-130, 152-195, 197-210, 212-231 |
| src/BrokenPowerLawExpCutoff.cxx (153) | SpecExpModel | 34-60, 62-151 |
| src/Composite2.cxx (304) | TiedModel | 30-302, 30-33, 35-43, 54-79, 60-71, 81-95, 97-122, 103-113, 103-114, 105-112, 116-120, 124-148, 150-174, 151, 152-168, 161-165, 171-173, 176-197, 178-189, 199-236, 202-230, 208-229, 219-225, 241-270, 246-258, 272-277, 292-302 |
| Likelihood/Composite2.h (102) | TiedModel |  |
| src/CompositeLikelihood.cxx (321) | CmpModel | 20-39, 41-48, 63-111, 72-86, 94-99, 103-110, 113-127, 129-195, 138-153, 140-152, 144-150, 162-172, 178-192, 197-215, 217-244, 246-319, 268-283, 298-309 |
| Likelihood/CompositeLikelihood.h (80) | CmpModel | 62-70 |
| src/CompositeSource.cxx (275) | CompoModel, SrcModel, VmapModel, XmlModel | 21, 26-33, 58-69, 58-80, 88-116, 118-156, 159-162, 164-185, 218-244, 218-229, 231-244, 259-270 |
| src/ConvolveHealpix.cxx (276) | PsfuModel | 91-198 |
| src/CountsMap.cxx (640) | CmapModel | 230-286, 269-279, 276-279, 299-335, 351-363, 417-424, 426-429, 431-456, 498-518, 521-567, 536-554, 569-610, 587-607, 612-628, 631-638 |
| Likelihood/CountsMap.h (174) | CmapModel |  |
| src/CountsMapBase.cxx (467) | CmapModel | 46-56, 57-67, 68-78, 74, 79-88, 84, 91-98, 100-124, 126-148, 150-161, 174-182, 279-282, 313-326, 384-391, 393-406 |
| src/CountsMapHealpix.cxx (380) | CmapModel, FioModel | 67-74, 86-100, 108-161, 144-154, 151-154, 163-181, 183-196, 198-213, 215-234, 342-346, 348-352 |
| Likelihood/CountsMapHealpix.h (141) | CmapModel | 88 |
| src/CountsSpectra.cxx (223) | CspModel | 23-35, 37-62, 64-85, 87-104, 98-101, 106-115, 117-149, 151-185, 187-206, 208-215, 217-221 |
| Likelihood/CountsSpectra.h (85) | CspModel | 38-46 |
| src/DiffRespIntegrand.cxx (155) | DrgModel | 25-33, 79-93, 95-119, 125-149 |
| src/DiffRespIntegrand2.cxx (148) | DrgModel | 71-85, 87-111, 117-141 |
| src/DiffRespNames.cxx (65) | EvtModel |  |
| src/DiffuseSource.cxx (412) | CompoModel, DexpModel, DrgModel, NpModel, ShapeModel, UnbinModel, XmlModel | 43-45, 56-90, 93-121, 129-157, 133-196, 133-156, 134-159, 158-196, 159-196, 161-198, 240-269, 255-269, 271-309, 330-374, 351-374, 379-398, 401-410 |
| Likelihood/DiffuseSource.h (247) | ShapeModel | 115-120, 224-233 |
| src/Drm.cxx (451) | BinnedModel, DrmModel, FioModel | 78-111, 82-83, 97-107, 115-144, 127-133, 147-171, 174-182, 185-262, 271-283, 293-306, 332-436, 354-376, 383-397, 399-434 |
| Likelihood/Drm.h (237) | DrmModel | 194-197, 217-231 |
| src/EblAtten.cxx (169) | SpecPowModel | 103-106, 108-137, 151-167 |
| src/EnergyBand.cxx (133) | DecModel | 27-47, 45-46, 49-54, 56-60, 62-68, 70-75, 77-87, 89-119, 121-131 |
| src/EquinoxRotation.cxx (75) | DrgModel | 15-50, 52-73 |
| src/Event.cxx (503) | DrgModel, EvtModel, UnbinModel | 39-46, 104-138, 156-229, 170-230, 175-228, 438-465, 449-453, 455-465, 467-487 |
| Likelihood/Event.h (226) | EvtModel | 116-119 |
| src/EventContainer.cxx (324) | EvtModel, LtpModel | 49-69, 61-69, 95-112, 114-183, 125-137, 129-133, 129-139, 151-180, 152, 239-265, 294-308, 310-322 |
| Likelihood/EventContainer.h (104) | LtpModel | 51-52 |
| Likelihood/EventSourceCache.h (105) | UnbinModel |  |
| src/ExpCutoff.cxx (132) | SpecExpModel | 34-58, 60-130 |
| src/ExpCutoffSEDPeak.cxx (99) | SpecPowModel | 31-50, 52-97 |
| src/ExposureMap.cxx (308) | DexpModel | 44-82, 84-118, 95-105, 107-114, 120-206, 271-285, 293-306 |
| Likelihood/ExposureMap.h (164) | DexpModel | 140-165 |
| src/FileFunction.cxx (114) | SpecPowModel, XmlModel | 28, 33-42, 44-54, 56-71 |
| src/FileUtils.cxx (888) | FioModel, VmapModel | 48-56, 58-75, 58-185, 77-89, 91-127, 129-187, 155-180, 372-546, 372-396, 398-460, 424-430, 431-436, 445-452, 453-457, 463-546, 576-592, 576-617, 594-603, 605-617, 637-884, 637-728, 745-784, 787-841, 843-884 |
| src/FitScanner.cxx (3406) | FpsModel, FscModel, FsmModel, NewtonModel, NscModel, PoissonModel, SnapModel | 223-227, 223-371, 223-233, 229-232, 235-249, 252-277, 266-271, 279-285, 287-331, 289-296, 334-371, 335-342, 580-582, 585-718, 585-617, 590-599, 605-615, 619-645, 627, 629-643, 678-684, 690-699, 692-699, 701-702, 701-711, 704-710, 713-717, 904-916, 919-960, 956-1270, 968-995, 997-1043, 1045-1062, 1052-1055, 1064-1116, 1104-1109, 1119-1149, 1151-1162, 1169-1175, 1185-1196, 1217-1244, 1246-1268, 1271-1301, 1319-1331, 1334-1359, 1438-1540, 1450-1456, 1482-1538, 1487-1499, 1542-1576, 1579-1586, 1589-1613, 1597-1613, 1616-1636, 1641-1650, 1688-1696, 1777-1794, 1777-1828, 1796-1799, 1808-1813, 1815-1828, 1831-1873 |
| Likelihood/FitScanner.h (1649) | FpsModel, FscModel, FsmModel, NewtonModel, SnapModel | 300-305, 322-327, 631, 788-794, 1184-1197 |
| src/FitUtils.cxx (2300) | BinnedModel, DrmModel, EgridModel, FpsModel, FscModel, NewtonModel, PoissonModel, SmapModel, VecModel | 53-77, 68-73, 79-85, 105-153, 243-254, 256-263, 265-289, 285-287, 291-313, 310-312, 315-337, 334-336, 339-345, 347-366, 368-392, 394-424, 426-784, 443-453, 473-483, 486-502, 504-506, 523-556, 541-544, 548-555, 551-554, 558-586, 569-572, 588-665, 619-633, 636-653, 657-662, 667-715, 693-700, 704-711, 717-784, 726-728, 753-760, 774-780, 819-1034, 836-1034, 846-849, 892-984, 1274-1280, 1357-1463, 1357-1531, 1400-1458, 1418-1419, 1466-1531, 1517-1518, 1534-1567, 1572-1865, 1572-1612, 1594-1605, 1600-1603, 1600, 1614-1639, 1625, 1626-1638, 1633-1637, 1642-1669, 1653, 1654-1668, 1662-1666, 1671-1720, 1686-1709, 1694-1697, 1722-1787, 1739-1765, 1747-1751, 1790-1822, 1807-1821, 1814, 1824-1865, 1849-1864, 1857, 1918-2263, 1918-1929, 1932-1943, 1946-1980, 1956-1957, 1983-1993, 1995-2009, 2012-2032, 2035-2056, 2058-2156, 2058-2088, 2079-2081, 2090-2156, 2158-2227, 2198-2200, 2230-2263, 2255-2257 |
| src/FluxBuilder.cxx (190) | XmlModel | 93-100, 108-113, 116-176, 121-141, 179-188 |
| src/GaussianError.cxx (97) | PriorModel | 34-45, 47-87, 89-95 |
| src/HealpixProjMap.cxx (616) | CmapModel, DexpModel, HpmModel | 64-80, 83-93, 96-109, 110-187, 189-238, 241-289, 291-332, 343-349, 364-381, 384-427, 391-406, 420-422, 429-446, 448-472, 474-483, 514-518, 537-560, 562-579, 598-605 |
| Likelihood/HealpixProjMap.h (158) | HpmModel |  |
| src/HistND.cxx (211) | HistModel | 13-30, 24-29, 46-51, 53-71, 61-69, 73-84, 86-88, 91-125, 102-107, 112-119, 121-123, 128-159, 138-143, 155-157, 162-210, 174-179, 203-205 |
| Likelihood/HistND.h (114) | HistModel | 88-95 |
| src/LikeExposure.cxx (377) | LtModel | 58-71, 268-324, 290-295, 300-314, 316-319, 326-337, 339-348 |
| src/LogGaussian.cxx (90) | PriorModel | 23-29, 31-38, 40-79, 81-88 |
| src/LogLike.cxx (431) | EmModel, UnbinModel | 27-34, 27-306, 36-110, 112-162, 164-203, 205-260, 274-306, 308-317, 343-424, 343-351, 343-352, 353-366, 368-390, 392-398, 404-412, 414-424 |
| src/LogNormal.cxx (86) | SpecPowModel | 26-40, 42-84 |
| src/LogParabola.cxx (100) | SpecPowModel | 53-60, 62-98 |
| src/MapBase.cxx (240) | DexpModel, DrgModel, MlibModel | 31-40, 43-45, 47-52, 54-62, 64-72, 74-93, 95-100, 102-108, 110-114, 149-197, 198-207, 219-240 |
| Likelihood/MapBase.h (136) | MlibModel | 77-82, 119-121, 129 |
| src/MapCubeFunction2.cxx (193) | DexpModel | 54-59, 89-133, 114-132, 135-185, 166-184 |
| src/MeanPsf.cxx (333) | MpsfModel | 29-60, 31-33, 34-53, 62-74, 76-91, 97-109, 115-147, 117-131, 123-129, 134-139, 149-195, 166-177, 168-176, 184-189, 234-253, 287-296 |
| Likelihood/MeanPsf.h (169) | MpsfModel | 128-140 |
| src/MultipleBrokenPowerLaw.cxx (143) | SpecListModel, XmlModel | 21-49, 22-50, 43-46, 45-48, 51-66, 68-123, 125-141, 131-139 |
| src/Npred.cxx (59) | UnbinModel | 32-46 |
| src/OneSourceFunc.cxx (140) | EmModel, NpModel | 19-31, 41-63, 41-65, 47, 65-84, 67-84, 74, 86-97, 99-109, 111-121, 123-138, 133-135 |
| Likelihood/OneSourceFunc.h (88) | EmModel |  |
| src/OptEM.cxx (115) | EmModel | 23-97, 39-90, 40-89, 45-57, 46-57, 60-83, 70-79, 99-113 |
| src/PSFUtils.cxx (1335) | PsfuModel | 42-53, 55-83, 115-130, 228-267, 887-1047, 903-904, 920-926, 1004-1026, 1049-1117, 1073-1078, 1155-1176, 1178-1185, 1187-1219, 1221-1264, 1247-1261, 1266-1291 |
| src/PiecewisePowerLaw.cxx (249) | SpecListModel, XmlModel | 27-56, 50-53, 51-54, 58-76, 78-145, 147-159, 161-173, 175-187 |
| src/Pixel.cxx (126) | NpModel | 16-44, 46-81, 83-102, 104-127 |
| Likelihood/Pixel.h (138) | PsfuModel | 28-60, 70-89 |
| src/PointSource.cxx (562) | CompoModel, LtModel, NpModel, UnbinModel, XmlModel | 47-50, 76-116, 85-118, 102-117, 105-115, 120-141, 128-138, 152-203, 154-204, 156-205, 205-238, 268-351, 283-289, 384-459, 406-409, 413-456 |
| Likelihood/PointSource.h (333) | XmlModel | 89-90 |
| src/PowerLaw2.cxx (138) | PLCacheModel, SpecIntModel, SpecPowModel | 23-24, 26-40, 42-59, 61-118, 120-136 |
| Likelihood/PowerLaw2.h (99) | PLCacheModel, SpecPowModel | 36-38, 50-80, 83-92, 93-94 |
| src/PowerLawSuperExpCutoff.cxx (106) | SpecExpModel | 36-53, 56-104 |
| src/PowerLawSuperExpCutoff2.cxx (108) | SpecExpModel | 36-55, 58-106 |
| src/PowerLawSuperExpCutoff3.cxx (107) | SpecExpModel | 36-54, 57-105 |
| src/PowerLawSuperExpCutoff4.cxx (121) | SpecExpModel | 36-59, 62-119 |
| src/ProjMap.cxx (230) | DexpModel, HpmModel, WmapModel | 142-166, 174-179, 181-186, 188-228 |
| Likelihood/ProjMap.h (183) | HpmModel, WmapModel | 145-163 |
| src/RadialDisk.cxx (151) | ShapeModel | 36-41, 46-54, 60-61, 70-81, 98-105, 121-128, 130-134, 136-140 |
| Likelihood/RadialDisk.h (122) | ShapeModel | 80-82, 117 |
| src/RadialGaussian.cxx (166) | ShapeModel | 39-43, 50-59, 65-78, 81-93, 111-118, 135-142, 144-148, 150-155 |
| Likelihood/RadialGaussian.h (122) | ShapeModel | 79-82, 117 |
| src/RadialProfile.cxx (158) | ShapeModel | 31-36, 38-47, 66-76, 78-86, 89-98, 100-102, 104-106, 108-117, 119-131, 133-152 |
| Likelihood/RadialProfile.h (88) | ShapeModel | 54-56, 74-80 |
| src/ResponseFunctions.cxx (259) | LtpModel | 98-147, 98-106, 108-147 |
| src/RoiCuts.cxx (271) | RoiModel | 29-47, 49-56, 58-68, 70-91, 93-106, 126-143, 145-175, 159-173, 177-227, 183-212, 229-263 |
| Likelihood/RoiCuts.h (184) | RoiModel | 50-53, 146-169 |
| src/ScData.cxx (166) | LtModel | 31-85, 56-83, 87-100, 102-119, 121-128, 130-137, 139-146 |
| Likelihood/ScData.h (92) | LtModel | 82-86 |
| src/ScaleFactor.cxx (154) | DecModel, SpecPowModel, XmlModel | 30-48, 31, 47, 50-69, 71-78, 80-85, 87-92, 94-101, 103-108, 110-113, 115-140, 142-152 |
| Likelihood/ScaleFactor.h (77) | DecModel | 37-41, 47-49 |
| src/ScanUtils.cxx (193) | NscModel | 28-36, 38-46, 47-55, 57-69, 71-158, 103-111, 125-130, 139-154, 160-189 |
| src/SkyDirFunction.cxx (53) | XmlModel | 30-39 |
| Likelihood/SkyDirFunction.h (74) | ShapeModel | 40-43 |
| src/SmoothBrokenPowerLaw.cxx (112) | SpecBrkModel | 38-56, 59-110 |
| src/SmoothDoubleBrokenPowerLaw.cxx (143) | SpecBrkModel | 46-69, 71-141 |
| src/Snapshot.cxx (439) | SnapModel | 39-64, 54-61, 56-59, 66-85, 73-77, 95-111, 113-133, 141-153, 155-186, 166-185, 188-219, 272-285, 299-309, 324-327, 329-338, 357-371, 373-383, 385-434, 395-409, 403-422, 425-433 |
| Likelihood/Snapshot.h (432) | SnapModel | 43-105, 69-97, 113-136, 142-179, 171-175, 312-400, 312-316 |
| src/Source.cxx (332) | BinnedModel, CompoModel, NpModel | 66-81, 66-82, 74-77, 113-136, 130-133, 138-157, 142-146, 150-154, 159-184, 169-173, 205-207, 209-225, 227-246, 248-288, 270-287 |
| Likelihood/Source.h (470) | CompoModel, NpModel, XmlModel | 56, 300-306, 330-340, 351-425, 435-442, 452-464, 457-460 |
| src/SourceFactory.cxx (607) | XmlModel, XmlText | 95-108, 141-151, 153-164, 166-179, 206-208, 219-243, 245-334, 258-333, 311-325, 313-324, 356-391, 365-383, 393-433, 435-455, 457-514, 506-510, 521-553, 555-590 |
| src/SourceMap.cxx (890) | BinnedModel, DrmModel, SmapModel, VmapModel | 75-110, 92, 97, 190-192, 210-222, 212-342, 212-280, 241-251, 282-342, 380-395, 380-415, 398-402, 405-415, 423-429, 432-445, 485-497, 500-507, 509-533, 535-550, 552-560, 645, 697-739, 711-715, 741-762, 745, 746-750, 754-762, 764-790, 767, 777-789, 777-778, 792-813, 795, 804-812, 816-836, 818, 828-829, 828-835, 840, 849-864, 866-875 |
| Likelihood/SourceMap.h (528) | BinnedModel | 166-177, 324-327 |
| src/SourceMapCache.cxx (678) | BinnedModel, CompoModel, DrmModel, FioModel, SmcModel, VmapModel | 63-68, 86-148, 86-103, 93-103, 108-145, 112-148, 112-147, 121, 125-129, 133-137, 148-152, 157-160, 163-173, 175-182, 222-247, 222-245, 222-256, 248-256, 261-312, 281-290, 336-349, 337-349, 351-369, 371-390, 421-430, 459-465, 477-503, 477-588, 505-530 |
| Likelihood/SourceMapCache.h (417) | BinnedModel | 101-103, 411 |
| src/SourceModel.cxx (679) | BinnedModel, CompoModel, EmModel, FioModel, ShapeModel, SrcModel, UnbinModel, XmlModel, XmlText | 76-78, 120-132, 134-162, 197-206, 197-412, 208-218, 220-228, 263-281, 294-303, 305-315, 321-334, 336-352, 336-343, 345-352, 354-364, 376-400, 388-398, 402-412, 404-415, 430-455, 457-490, 512-612, 540-610, 562-579, 589-602, 614-620, 623-628, 670-677 |
| src/SourceModelBuilder.cxx (324) | XmlModel, XmlText | 56-64, 100-116, 119-145, 127-131, 150-159, 171-176, 178-198, 200-251, 213-237, 242-248, 273-282, 306-308, 318-322 |
| Likelihood/SparseVector.h (448) | FioModel, SparseModel, VmapModel | 24-40, 115, 118, 142-145, 157, 211-215, 221-230, 232-237, 239-254, 256-260, 262-266, 268-274, 276-286, 288-296, 298-312, 314-330, 314-322, 324-332, 334-346, 340-345, 348-354, 356-369, 371-377, 379-385, 382, 387-394, 396-402, 399, 404-415, 417-430, 420-421, 432-444 |
| src/SpatialFunction.cxx (110) | ShapeModel | 38-49, 60-62, 99-102, 104-108 |
| Likelihood/SpatialFunction.h (176) | ShapeModel | 147-150 |
| src/SpatialMap.cxx (192) | DexpModel | 62-71, 88-134, 113-131, 136-182, 163-181 |
| src/SummedLikelihood.cxx (262) | SummedModel | 29-248, 29-34, 48-71, 73-93, 95-102, 113-129, 131-143, 145-185, 158-166, 178-181, 187-200, 227-248 |
| src/TiedParameter.cxx (131) | TiedModel | 35-129, 35-43, 45-51, 53-61, 70-76, 100-105 |
| src/TrapQuad.cxx (121) | NpModel, TrapModel | 19-34, 36-61, 63-86, 88-95, 93, 97-119, 113-118, 117 |
| Likelihood/TrapQuad.h (64) | TrapModel | 27-43 |
| src/WcsMap2.cxx (1077) | WmapModel, WrebModel | 58-64, 69-89, 109-124, 126-143, 144-226, 185-187, 306-308, 353-420, 377-379, 478-547, 549-580, 555-570, 602-633, 758-790, 805-818, 820-836, 838-850, 856-917, 920-926, 929-957, 959-1063, 961-970, 1018-1026, 1035-1047, 1066-1074 |
| Likelihood/WcsMap2.h (199) | WmapModel, WrebModel | 168-182 |
| src/WcsMapLibrary.cxx (115) | MlibModel | 36-65, 38, 67-76, 84-92, 94-98, 100-106, 108-113 |
| src/WeightMap.cxx (156) | CountsModel |  |

Files of which nothing is modelled (number of lines): Likelihood/BandFunction.h (51), src/BinnedConfig.cxx (54), src/BinnedHealpixExposure.cxx (314), Likelihood/BinnedHealpixExposure.h (89), Likelihood/BrokenPowerLaw2.h (56), Likelihood/BrokenPowerLaw3.h (58), Likelihood/BrokenPowerLawExpCutoff.h (46), Likelihood/CompositeSource.h (289), src/Convolve.cxx (275), Likelihood/Convolve.h (41), Likelihood/ConvolveHealpix.h (39), Likelihood/CountsMapBase.h (263), Likelihood/DMFitFunction.h (73), Likelihood/DiffRespIntegrand.h (102), Likelihood/DiffRespIntegrand2.h (103), Likelihood/DiffRespNames.h (71), Likelihood/EblAtten.h (62), Likelihood/EnergyBand.h (54), Likelihood/EquinoxRotation.h (54), Likelihood/Exception.h (39), Likelihood/ExpCutoff.h (46), Likelihood/ExpCutoffSEDPeak.h (47), src/ExposureCube.cxx (122), Likelihood/ExposureCube.h (195), Likelihood/FileFunction.h (70), Likelihood/FileUtils.h (425), Likelihood/FitUtils.h (947), Likelihood/FluxBuilder.h (40), Likelihood/GaussianError.h (51), Likelihood/LikeExposure.h (123), Likelihood/LogGaussian.h (53), Likelihood/LogLike.h (147), Likelihood/LogNormal.h (44), Likelihood/LogNormalLog.h (65), src/LogNormalMuDist.cxx (117), src/LogNormalMuDist.h (61), Likelihood/LogParabola.h (51), Likelihood/MapCubeFunction2.h (87), src/ModelMap.cxx (190), Likelihood/ModelMap.h (59), Likelihood/MultipleBrokenPowerLaw.h (52), Likelihood/Npred.h (54), Likelihood/Observation.h (161), Likelihood/OptEM.h (49), Likelihood/PSFUtils.h (538), Likelihood/PiecewisePowerLaw.h (65), Likelihood/PowerLawSuperExpCutoff.h (51), Likelihood/PowerLawSuperExpCutoff2.h (51), Likelihood/PowerLawSuperExpCutoff3.h (51), Likelihood/PowerLawSuperExpCutoff4.h (51), Likelihood/ResponseFunctions.h (156), Likelihood/ScanUtils.h (99), Likelihood/SkyDirArg.h (57), Likelihood/SmoothBrokenPowerLaw.h (52), Likelihood/SmoothDoubleBrokenPowerLaw.h (66), Likelihood/SourceFactory.h (247), Likelihood/SourceModel.h (283), Likelihood/SourceModelBuilder.h (71), src/SparseVector.cxx (18), Likelihood/SpatialMap.h (98), Likelihood/SrcArg.h (44), Likelihood/SummedLikelihood.h (111), Likelihood/TiedParameter.h (77), Likelihood/Util.h (98), src/WcsMap.cxx (656), Likelihood/WcsMap.h (151), Likelihood/WcsMapLibrary.h (75), Likelihood/WeightMap.h (126), src/XmlBuilder.cxx (26), Likelihood/XmlBuilder.h (28), src/XmlParser.cxx (19), Likelihood/XmlParser.h (38), src/mainpage.h (537), src/tutorial.h (960).

The command line tools in src/TsCube, src/TsMap, src/backfile, src/diffuseResponses, src/dmfit, src/expMap, src/exposureMap, src/gtaddlivetime, src/gtalphabkg, src/gtcntsmap, src/gtdrm, src/gtebl, src/gteffbkg, src/gtexpcube2, src/gtfindsrc, src/gtmodelmap, src/gtsrcmaps, src/gtsrcprob, src/gtwtsmap, src/likelihood, src/makeExposureCube, src/meanPsf, src/old_tests, src/test are not modelled either, nor are FITS and XML input and output, the packages tip, optimizers, irfs, astro and
evtbin (their functions appear as universally quantified arguments, with the assumptions stated in the theorems),
memory allocation, threads (the code has none), and floating point rounding except where section 1 says so.

## 4. Trusted base

Coq's kernel; the listed output of `Print Assumptions` of each theorem (section 6); the reading of
the C++ source into the model.

## 5. Findings

Statements that the code does not meet. Each theorem below is proved of the model, with a
witness or for all inputs; the property keeps the status "partial".

**C102** Ranged sparse exports and exports into used destinations

* `C02_dense_export_nonempty_refuted`: A destination that is not empty keeps its old content where the sparse vector is null.
* `C02_range_export_overruns_refuted`: ... and otherwise always writes past the end of the destination.
* `C02_range_key_value_refuted`: The ranged key/value export is out of bounds for every positive [first] with a stored entry in the range.

**C104** The binned accumulator conserves the sum

* `C04_accumulator_zero_first_refuted`: Missing: a history that starts by adding zero reads uninitialised bounds.

**C106** Histogram sums over a range

* `C06_sum_range_first_bin_refuted`: With a first bin other than 0 the range [0, last - first) is summed instead: the sum over bins 1 and 2 of the second axis is (530, 640).
* `C06_sum_range_axis_refuted`: Over an axis that is not the last the wrong cells are added: the sum over the whole first axis at position 1 of the second is 30 + 40.
* `C06_sum_range_1d_refuted`: On a one-dimensional histogram sumRange builds a histogram with no axis, which writes out of bounds.

**C10** Sparse and dense Poisson log-likelihoods agree

* `C10_negative_bin_masked_refuted`: A negative model bin without data is an error for the full representation but is hidden in the lumped bin of the compressed one.
* `C10_weights_of_other_model_refuted`: The lumped weights are computed once, from the initial model (FitScanner.cxx:1670); for another model the weighted log-likelihoods differ.

**C13** Gradient and Hessian used by the normalisation fitter are the derivatives of its log-likelihood

* `C13_small_weight_refuted`: With a weight so small that the weighted counts fall below 1e-9 the likelihood drops the logarithm of that bin but the gradient keeps it.

**C14** The normalisation fitter never returns a worse likelihood and reports the likelihood of the point it returns

* `C14_undamped_worse_refuted`: One bin, one template, exact 1x1 inverse, no damping: success is reported with a log-likelihood below the starting one.
* `C14_negative_lambda_refuted`: A negative damping parameter: the reported log-likelihood is still the one of the starting point.
* `C14_no_counts_refuted`: No counts, with damping: the last normalisation is set to zero, the reported log-likelihood is the one before.

**C116** The parameter vector is that of the sources after any operation

* `C16_stale_after_out_of_bounds_refuted`: The full statement is false: a value out of bounds is refused after earlier sources have been changed, and the parameter vector still shows the old values.
* `C16_overrun_after_refused_set_refuted`: Worse, after a half-way refused setParams the number of free parameters the model reports is stale, and a setFreeParamValues of that length reads past the end of the vector it is given.

**C17** Moving sources between models conserves them

* `C17_give_loses_source_refuted`: The full statement is false for calls that throw: the source leaves its model before the receiving model refuses it.
* `C17_split_loses_source_refuted`: Splitting a source that is not composite throws and the source is gone.
* `C17_merge_loses_sources_refuted`: Merging with an unknown name, or into a name already taken, throws and the sources already moved are gone.

**C18** Tied parameters always hold one common value

* `C18_summed_throwing_tie_loses_parameter_refuted`: C18 is false of the code for a tieParameters call that throws because a parameter is tied already: the parameter visited before it is lost from the free parameters.
* `C18_mixed_tie_misassigns_refuted`: C18 is false of the code when a free parameter is tied with a fixed one of the same name: the group is accepted and free, but the values set afterwards reach the wrong parameters and reading them back gives something else.
* `C18_fixing_a_group_overruns_refuted`: C18 is false of the code after a group was fixed through getTiedParam(...).setFree(false): the components' spectra still count the member as free, and setting the free parameters reads past the end of the vector.
* `C18_parameter_in_two_groups_refuted`: C18 is false of the code when a parameter is put into two groups, which is not rejected: the members of the first group end up with different values.
* `C18_throwing_tie_loses_parameter_refuted`: C18 is false of the code for a tieParameters call that throws: a parameter already visited no longer appears among the free parameters although it is in no group.
* `C18_tie_different_names_refuted`: C18 is false of the code when parameters of different names are tied: the tie is accepted, but the member takes the name of the group and values set through the group never reach it.
* `C18_fixed_group_diverges_refuted`: C18 is false of the code for a group of fixed parameters: after tieParameters all members read the same, after the next setFreeParamValues they read differently again.

**C119** Gradient of a summed likelihood

* `C19_summed_group_derivative_refuted`: C19 is false of the code for a group: the derivative returned for it is that of its last member only, not the sum over the members.
* `C19_summed_stale_output_refuted`: C19 is false of the code when the vector passed in is not empty: its old contents are added to the result.

**C20** Index lookup agrees with the parameter order

* `C20_summed_fixed_group_refuted`: In a summed likelihood a fixed group before the searched parameter shifts the index that is reported.
* `C20_fixed_group_shifts_refuted`: C20 is false of the code: a fixed group before the searched one shifts the result, which is then not the position of the parameter; and a member of a fixed group is given a position although it is no free parameter.

**C21** Filled-pixel index is complete, sorted and partitioned by energy

* `C21_cannot_remove_weights_refuted`: What is missing: deleteOriginalWeightMap() sets the original pointer to null, after which setWeightsMap(0) is taken for a repetition of the current map and does nothing, so the weights, the filled pixels and the weighted spectrum stay.

**C23** Cached fixed-source model equals the sum over fixed sources

* `C23_delete_after_change_refuted`: Deleting a fixed source after changing its parameter, before the next evaluation, subtracts what it would contribute now and not what it contributed: the likelihood without any source predicts -3*10 counts, however often it is evaluated.
* `C23_delete_after_freeing_refuted`: The same for a source that was freed and changed by a fit which did not end in a value.
* `C23_name_reused_refuted`: A source added under the name of a deleted one uses the map of the deleted one.
* `C23_set_image_refuted`: A map put in by hand counts for a free source and not for a fixed one, until the fixed model is rebuilt for another reason; and then the map is the old one again.
* `C23_gradient_refuted`: After setParam alone, and after deleting or freeing a source, the gradient still uses the model of the last evaluation, and it does not have the derivatives of a freed source.
* `C23_corrections_refuted`: A change of the parameter of a fixed source is not fully seen, however often value() is called.
* (read in the code, no theorem) BinnedLikelihood::countsSpectrum divides by the model counts of bins outside of the selected range, which are zero.

**C26** Unbinned cached predicted counts stay equal to the recomputed ones

* `C26_fixed_change_refuted`: Changing a parameter of a source without free parameters and synchronising is not enough: the predicted counts stay the old ones.
* `C26_unset_bounds_refuted`: Lifting the energy bounds does not bring back the predicted counts of the full range, even for free parameters synchronised afterwards.
* `C26_added_in_bounds_refuted`: A source added while the energies are restricted counts with its full range.
* `C26_moved_refuted`: Moving a source leaves the response of its old position in the cache.
* `C26_after_throw_refuted`: After an evaluation that threw, the terms of the events before the one that threw are counted again in the next value.

**C128** Only keys are accepted as keys

* `C28_other_keys_refuted`: A string that is the key of no column can be accepted: the root alone, and trailing characters.

**C130** Energy dispersion convolution is linear and keeps counts non-negative

* `C30_negative_refuted`: What is missing: the linear extrapolation gives negative counts.
* `C30_linear_refuted`: Nor is it linear with extra bins.
* `C30_single_bin_refuted`: One measured bin and extra bins: counts[1] is read out of range.

**C31** Cached dispersion corrections reproduce the convolved spectrum

* `C31_leading_empty_bin_refuted`: What is missing, first: without true counts in the first bin the old method reads the weighted counts of bin -1.
* `C31_first_message_refuted`: Second: the message of the first negative count reads as many true counts as the map has planes, extra bins included.
* `C31_weighted_true_counts_refuted`: Third: with the new method the weighted true counts combine the spectrum of the bin with the planes of the lowest bin of its window.

**C32** PowerLaw2 caching is invisible

* `C32_doubles_refuted`: So for some functions log, exp and pow it is visible that there was an earlier call.

**C133** Spectral derivatives: LogNormal, ExpCutoffSEDPeak, EblAtten, PiecewisePowerLaw

* `C33_LogNormal_refuted`: LogNormal: no derivative (0/0) with respect to the prefactor where it is zero.
* `C33_ExpCutoffSEDPeak_refuted`: ExpCutoffSEDPeak: no derivative (0/0) with respect to the first parameter where it is zero.
* `C33_EblAtten_refuted`: EblAtten: the derivative with respect to tau_norm leaves out the parameter's scale.
* `C33_PiecewisePowerLaw_refuted`: PiecewisePowerLaw: the derivative with respect to an index leaves out the parameter's scale.

**C34** Spectral derivatives: exponential cutoff family

* `C34_zero_prefactor_refuted`: No derivative (0/0) with respect to the prefactor where it is zero, for the functions with an exponential cutoff.
* `C34_bounded_exponent_refuted`: Where the exponent is cut the value does not move, but the result is not 0.
* `C34_BPLExpCutoff_refuted`: BPLExpCutoff: with a prefactor of zero the derivative with respect to it is wrong.

**C135** Spectral derivatives: other broken power laws and the Band function

* `C35_BrokenPowerLaw2_refuted`: BrokenPowerLaw2: the derivative with respect to an index is zero on the side of the break on which it is not used directly, although the normalisation depends on it.
* `C35_SmoothDoubleBrokenPowerLaw_refuted`: SmoothDoubleBrokenPowerLaw: the derivative with respect to Index2 leaves out the parameter's scale.
* `C35_BandFunction_refuted`: BandFunction: the derivative with respect to Alpha is wrong when Alpha is not above Beta.
* `C35_zero_prefactor_refuted`: No derivative (0/0) with respect to the prefactor where it is zero, for SmoothBrokenPowerLaw, SmoothDoubleBrokenPowerLaw and BandFunction.
* `C35_MultipleBrokenPowerLaw_refuted`: MultipleBrokenPowerLaw: the derivative with respect to an index leaves out the parameter's scale.

**C136** BrokenPowerLaw3's Integrals and the spectra's own integrals

* `C36_PowerLaw2_integral_refuted`: For Index = -1 it has no value (0/0), although the integral exists.
* `C36_BrokenPowerLaw2_integral_refuted`: A constant spectrum of value 1 whose break energy is 2: the integral over [1, 3] is 2, the result is 1.
* `C36_BrokenPowerLaw2_integral_from_break_refuted`: And when the range starts at the break the index below it is used: break energy 1, value x above it; over [1, 2] the integral is 3/2, the result is 1.
* `C36_BrokenPowerLaw3_integral_refuted`: With the break at 3/2 and the value 1 below it: over [1, 5/4] the integral is 1/4, the result 1/6.

**C137** BPLExpCutoff and PLSuperExpCutoff4 are continuous across their breaks

* `C37_BPLExpCutoff_refuted`: ... at the break it always drops to 0.
* `C37_PLSuperExpCutoff4_refuted`: PLSuperExpCutoff4 jumps where the Taylor polynomial takes over.

**C138** Gaussian priors after parameter changes, and their parameter derivatives

* `C38_LogGaussian_value_refuted`: The normalisation of LogGaussian is that of the sigma at construction, not of the current one.
* `C38_mean_refuted`: The derivative of LogGaussian with respect to Mean is wrong at every other argument, and that with respect to Sigma is wrong for both functions, except in isolated points, whatever the parameters.
* `C38_sigma_refuted`: The derivatives of LogGaussian and GaussianError with respect to Sigma are wrong wherever the argument is not the mean.
* `C38_scale_refuted`: No parameter's scale is used: wherever the derivative is right for a unit scale and not zero, it is wrong for every other scale.

**C139** Derivatives of the predicted counts and of the model counts of a pixel

* `C39_npred_refuted`: Without that condition it is not, although the spectrum's own derivative is right: the shortcut gives the value over the parameter.
* `C39_pixel_rule_refuted`: They are not the derivatives of modelCounts: the two use different rules.
* `C39_pixel_prefactor_refuted`: With a free non-zero "Prefactor" the response is taken at another separation, and they are the derivatives by neither rule.
* `C39_pixel_reuse_refuted`: A vector that is not empty is added to.

**C40** Band-limited spectrum

* `C40_set_param_refuted`: setParam refuses a parameter that is valid within its own bounds, when its value is outside the bounds of the parameter it replaces.
* `C40_assign_refuted`: Assigning a band to another leaves it with its own limits.
* `C40_assign_other_refuted`: Assigning one with other parameters throws, and leaves an object whose use is undefined: the spectrum has been replaced.

**C141** Source map cache through all histories

* `C41_null_refuted`: Without computed point sources, asking for the map of a point source that is not in the file gives a null pointer the first time, and uses it the second.
* `C41_rebuild_refuted`: If rebuilding a map throws, the freed map stays in the cache: the next use, or destroying the cache, is undefined.
* (read in the code, no theorem) SourceMapCache's copy constructor initialises members from themselves.
* (read in the code, no theorem) setSourceMapImage dereferences a null pointer for an unknown source.

**C142** Map library through all histories

* `C42_names_refuted`: ... but with a colon in it the names of two maps can be the same, and the second is never read.
* `C42_copy_refuted`: A copy of an object, as clone() makes it, is not told when the map is deleted through the original: using the copy uses a freed map. So does using an object whose map was deleted by its address (BinnedCountsCache::deleteOriginalWeightMap does that).
* `C42_delete_pointer_refuted`: Deleting a map by its address does not tell the objects that use it; the next use is of a freed map.
* `C42_rebin_refuted`: A rebinned map is forgotten, and lost, as soon as any other map is deleted: the object reads the original again.
* `C42_failed_read_refuted`: An object that failed to read another file keeps its map, but watches the name of the other: it misses that its map is deleted once the other is loaded.
* (read in the code, no theorem) ExposureMap keeps a pointer to a map of the library without observing it.

**C43** SparseVector::resize keeps the prefix and sets the size

* `C43_resize_sets_size_refuted`: The full statement "size() is n after resize(n)" is false ...
* `C43_push_after_shrink_refuted`: ... and a push_back after a shrinking resize lands at the old end.

**C44** Selecting energy bins in the fit scanner selects exactly those layers

* `C44_unreduced_refuted`: Without the reduction the indices are off by one layer: asking for all layers leaves out the last one.

**C146** Weighted and undispersed plane totals agree with the model map

* `C46_reference_bin_refuted`: What is missing, first: with a reference bin the weighted sums of plane [k] are combined with the spectrum of the reference bin, so the weighted total is not that of the map.
* `C46_sparse_weighted_refuted`: For a sparse map the weighted sums visit only the non-zero entries of the plane of the bin itself, so counts that come from the next plane alone are missed.
* `C46_undispersed_window_refuted`: Third: with the new dispersion method the "no dispersion" total of a plane adds up all the true-energy bins of its window.

**C47** Binned gradient is the derivative of the binned log-likelihood

* `C47_rescaling_refuted`: C47: with the old method the reported gradient treats the correction factors as constants although they depend on the spectrum.

**C48** The likelihood does not depend on whether a source is fixed or free

* `C48_reference_bin_refuted`: What is missing: with a reference bin the free source is weighted by the reference plane, the fixed one by its own.

**C49** Switching energy dispersion affects counts and totals alike

* `C49_switch_without_fixed_refuted`: With no fixed source in the model, the first evaluation after the switch reads an empty vector; whatever the sources are.
* `C49_switch_refuted`: The switch reaches the totals of the free sources and not their counts, and not the fixed sources; switching back does not restore the first state.

**C50** Going back to the best fit seen

* `C50_fixed_change_refuted`: After a change of a fixed parameter, going back to the best fit restores free parameters that are not the best for the model at hand.
* `C50_other_source_refuted`: Replacing a source by another with as many parameters gives the new source the values of the old one when there was no evaluation since.
* `C50_bounds_refuted`: Evaluations in different energy ranges are compared with each other: the parameters restored need not be the best ones of any range.

**C51** Unbinned gradient is the derivative of the unbinned log-likelihood

* `C51_unsynchronised_refuted`: Freeing a parameter through the source itself and asking for the gradient before synchronising writes past the end of the array of derivatives.

**C52** Events hold the contributions of the current model

* `C52_fixed_change_refuted`: The contribution of a source without free parameters is not renewed by an evaluation.

**C54** Diffuse responses written to event files are read back for the right source

* `C54_order_refuted`: With files that list the same names in different orders, responses that were in the second file are read back for the wrong source: the names known from the first file are kept.
* `C54_unused_first_refuted`: With an unused name before one in use, the response of the latter is overwritten.
* `C54_two_unused_refuted`: Reading a file with two unused names before one in use takes the wrong column.
* `C54_old_form_refuted`: A file that has a column under the old form of the name is skipped, but the response is not found.
* `C54_case_refuted`: Two sources whose names differ only by case get the response of the first.
* `C54_clobber_refuted`: Clobber: a column that exists is kept, not computed again.

**C155** Indices of SmoothBrokenPowerLaw

* `C55_SmoothBrokenPowerLaw_limits_refuted`: With a positive Beta and Index1 < Index2 the indices of SmoothBrokenPowerLaw are exchanged: Index2 holds below the break.

**C156** Every source map used shows the present source

* `C56_refuted`: ... but not for a source that replaces a deleted one of the same name at another place: it gets the old map.

**C157** The complement form of a scaled spectrum

* `C57_bounds_refuted`: But the form is accepted when only one of the bounds is right: then the spectrum can be negative.
* `C57_refused_refuted`: If it is refused it is set nevertheless ...
* `C57_constructor_refuted`: ... and no object can be constructed in it, since a new factor has no bounds.

**C158** Predicted counts over a part of the grid

* `C58_grid_refuted`: On another grid, which computeExposure accepts, they need not.
* `C58_below_refuted`: A range below the grid: the program casts a negative number to an unsigned one.
* `C58_above_refuted`: A range above the grid: the counts are negative, with a positive spectrum and positive exposures.

**C59** Only good time counts as livetime

* `C59_no_gtis_refuted`: ... which is not the time that is in some good time interval: if no good time is left, everything is good.
* `C59_unsorted_refuted`: The good time intervals have to be in order ...
* `C59_overlap_refuted`: ... and must not overlap: the same time is counted twice.
* `C59_load_empty_refuted`: An empty table is not survived, although the code means to do nothing with it.

**C160** Spacecraft data: order, other times and exposure

* `C60_order_refuted`: The order of the spacecraft file's rows is checked only from the third row on: two rows in the wrong order are accepted.
* `C60_tolerance_refuted`: The tolerance of the look-up does not help just before the first interval: the look-up accepts the time, and the livetime fraction throws.
* `C60_axes_refuted`: Just before the first interval, within the tolerance of the look-up, the axes are extrapolated from the last two intervals instead of the first two.
* `C60_exposure_refuted`: The exposure of a point source leaves out the last interval when the good time reaches beyond it.

**C161** Region-of-interest cuts set again, and accepted events

* `C61_accept_refuted`: An event outside of all good time intervals is accepted if it is inside the last time range cut.
* `C61_accept_early_refuted`: Before any cut was set or read, accept() looks at a number that was never given.
* `C61_read_again_refuted`: Reading a second file adds to what was there: the good times stay those of the first file, the time ranges of both have a say.
* `C61_set_again_refuted`: Cuts that are set again: the good times can only shrink, whatever the new limits.
* `C61_tmax_refuted`: With two GTI cuts the latest time is too early.
* `C61_strict_refuted`: Whether a file with two energy ranges, one inside the other, is refused depends on their order.

**C162** Shared parameters of composite likelihoods

* `C62_fixed_in_one_refuted`: Fixing the shape parameter in one component: the statistic still depends on it there, since setting the vector sets it, but the derivative leaves that component out.
* `C62_free_in_later_refuted`: A shape parameter free only in a later component is not in the vector, and asking for the derivatives divides by zero.
* `C62_stale_refuted`: A binned component whose model was computed before: setting values through the composite does not tell it, and the derivatives are those of the old model.
* `C62_parameter_list_refuted`: The full parameter list kept after setting lacks every parameter called like the common normalisation, except one.

**C163** Snapshots report changes under the right flags and sources added or removed

* `C63_flags_refuted`: A disk (DEC, RA, Radius) replaced by a Gaussian (DEC, RA, Sigma) at another place: the change of the declination is reported as a change of the value of the normalisation, which is the same.
* `C63_removed_refuted`: A source that has disappeared is never reported as removed: a free one is reported as a fixed one added, a fixed one as a free one added.
* `C63_added_refuted`: A source that is new is reported as removed and not as added.
* `C63_compare_model_refuted`: Comparing with a whole model does not see that sources have disappeared.
* `C63_template_type_refuted`: The spectrum of a template source is replaced by one of another type: the fit scanner does nothing.
* `C63_template_removed_refuted`: A template source is removed from the model: the fit scanner does nothing.
* `C63_relatch_refuted`: A source latched twice by the same object is reported as changed although it is the same.
* `C63_prior_type_refuted`: A prior replaced by one of another type with the same parameter names and values is not reported.
* (read in the code, no theorem) operator&(unsigned) of the status uses |.
* (read in the code, no theorem) Free_Changed_Mask is built from the wrong constant.
* (read in the code, no theorem) print_source of an unknown name dereferences end().
* (read in the code, no theorem) The default copy of a snapshot frees its sources twice; deep_copy of an unowned snapshot deletes the source's own normalisation parameter.

**C164** Bins of merged analyses lie in their layers and energy ranges

* `C64_bounds_refuted`: When the bins of two components overlap without being the same, a whole bin is put in a layer that ends before the bin does.
* `C64_klims_refuted`: Restricting a summed analysis to the merged layers [kmin, kmax) leaves every component with an empty range.
* (read in the code, no theorem) Without components the number of merged bins wraps around.

**C165** The fit scanner's cache through all histories

* `C65_rebuild_refuted`: A rebuild of a cache that has templates reads reference values that do not exist, whatever the new model: the templates of the old model are still there.
* `C65_dropped_refuted`: Any update of the fixed sources or of a template takes the test source out of the fit.
* `C65_zero_norm_refuted`: No cache for a model in which the normalisation of a free source is zero.
* `C65_zero_update_refuted`: A template that is remade while the normalisation is zero is lost: when the normalisation is set back, the cache predicts no counts from the source.
* `C65_par_scales_refuted`: Fixing everything at the current values changes the model, if a template source was already fixed at a value other than its reference value.
* (read in the code, no theorem) FitScanMVPrior::update with a covariance matrix reduces only the Hessian to the free parameters, the central values and the covariance keep their size.
* (read in the code, no theorem) buildPriorsFromExternal with globalPrior tests m_prior_bkg and uses m_global_prior_bkg.
* (read in the code, no theorem) signalUncertainty_quad solves a x^2 + b x = delta without the factor 1/2 and returns a truncated quotient as a status.
* (read in the code, no theorem) fillModelCounts with an unknown name uses index -1.

**C166** Averaged point spread function: integrals between energies, energies above the grid, no exposure

* `C66_high_refuted`: An energy above the grid is not refused, although one below is: the answer is that of the last energy.
* `C66_blind_refuted`: Without exposure the table is zero, the integral is zero up to seventy degrees and one from there on: it jumps, and no cone contains any fraction strictly between.

**C167** Look-ups and files of binned exposure maps

* `C67_wrap_refuted`: Without enforcement a single look-up beyond the end of a row gives the exposure of the first pixel of the next row, where the request for all energies gives zero.
* `C67_nearest_pixel_refuted`: Coordinates are cut off, not rounded: beyond the middle between two pixel centres the exposure is still that of the lower one.
* `C67_edge_refuted`: The first pixel also takes what lies up to one pixel to the left of its centre.
* `C67_rotation_refuted`: A rotated map does not: the file says it is unrotated.
* `C67_reference_refuted`: Nor does a map whose counts map has its reference pixel elsewhere.
* `C67_planes_refuted`: With energy dispersion bins the image in the file is declared with the original number of energy planes, but the table has more.
* `C67_rewrite_refuted`: A map read from a file cannot be written again: it has no defined coordinate system.
* `C67_nearest_energy_refuted`: The nearest energy is not what is found: the first within the tolerance is.

**C168** All-sky maps, plane indices, maps of one plane, and integrals next to zeros

* `C68_last_column_refuted`: Refuted: the pixel nearest to a direction. Without interpolation (and in the outer halves of the first and last rows) a map all around the sky answers the left half of its seam, and with it the centre of its last column, with the first column.
* `C68_negative_refuted`: Refuted: values between the pixels, for every direction. Pixel coordinates below zero occur when the reference pixel is not in the middle of the map. Just below zero the value is extrapolated, from -1 on the look-up fails.
* `C68_full_circle_refuted`: ... Refuted for the usual case of a negative width: the same map with its longitudes counted the other way does not wrap when the columns fall the least bit short of the circle, and wraps when they overshoot it by nearly one degree.
* `C68_index_refuted`: ... but, refuted, the number of energies itself is let through and read past the end of the image.
* `C68_single_refuted`: Refuted: a map with one plane has a value at every energy. At any other energy than its own the look-up reads a second plane.
* `C68_integral_refuted`: Refuted: between two tabulated energies there is an integral. Where one of the two is zero the logarithm fails.
* `C68_product_refuted`: Refuted: the product is a map like any other. It keeps all the energies of the map it was made from, and at any but the first reads planes it does not have.

**C169** Sky maps made from counts, with holes, all around the sky or at a pole

* `C69_roundtrip_refuted`: Refuted when a pixel lies off the sky, so that its solid angle is zero: the intensity is not a number.
* `C69_oblong_refuted`: 
* `C69_mirrored_refuted`: ... and in a square map every pixel is weighed with the solid angle of its mirror image about the diagonal.
* `C69_rebin_hole_refuted`: Refuted for maps with pixels off the sky, such as all-sky maps in the Aitoff projection: a block of pixels without solid angle gets a value that is not a number.
* `C69_factor_zero_refuted`: A factor of zero divides by zero; a factor of one changes no pixel.
* `C69_periodic_refuted`: Refuted: a map around the sky keeps wrapping around after rebinning, though its padded columns go beyond the full circle unless the factor divides their number.
* `C69_inside_refuted`: Refuted as a statement about all pixels: a direction inside the map may be much closer to a pixel that is not at the border.
* `C69_pole_refuted`: ... refuted as a description of a pixel centred on the pole, where the width is that of half the pixel, twice: with longitude and latitude proportional to the pixel coordinates, and the pole seen under the plane angle, a pixel of one degree at the equator of the map keeps its area, but the pixel at the pole is taken from its lower edge on the left to a quarter of its height on the right.

**C170** Extended sources after later changes, and tables with repeated or few abscissae

* `C70_step_refuted`: At either end it has no value there: a quotient 0 / 0, or x / 0.
* `C70_negative_refuted`: A profile that falls at its end is negative far beyond it.
* `C70_short_refuted`: A table of one line is accepted and then throws, or is out of bounds; one without lines is out of bounds.
* `C70_template_refuted`: The reader's message asks for rising abscissae, but equal ones pass.
* `C70_angular_refuted`: It leaves out what lies before the table although the profile has values there: a profile that is one everywhere.
* `C70_getcenter_refuted`: Before any evaluation, a new profile's centre is a null pointer.
* `C70_norm_refuted`: The normalisation has no effect on the value, but its derivative is the value divided by it.
* `C70_stale_refuted`: A change of the parameters after an evaluation changes nothing.
* `C70_assign_refuted`: A profile that has been evaluated keeps its centre when it is assigned one that has not.
* `C70_zero_size_refuted`: A disk of radius zero is empty, and a Gaussian without width has no value.
* `C70_move_refuted`: So the next parameter that is set moves it back.
* `C70_reread_refuted`: Parameters set as a vector, as reReadXml does it, change nothing.
* `C70_limits_refuted`: The function that sets them ends without a return value.
* `C70_limits_wrap_refuted`: Otherwise they may leave out part of the source: a disk of 60 degrees seen from 90 degrees away, and a Gaussian seen from the opposite side.
* `C70_reference_refuted`: The reference direction of a profile that has never been evaluated is a null pointer.
* `C70_radius_refuted`: ... and stays so when the shape grows.
* `C70_unity_refuted`: The integral over the sky of a disk is taken to be one, its value in a plane: on the sphere it is less.

**C171** Position angles and limits of diffuse response integrals

* `C71_pole_refuted`: At 90 degrees due north or south the direction is not a number.
* `C71_phi_refuted`: Missing: a direction opposite to the event's (or at one of the poles of the coordinates) has no angle that is a number.
* `C71_limits_refuted`: Missing: corners on both sides of the angle of 180 degrees. The range then runs from the largest to the smallest angle, so that every corner with an angle in between is left out.

**C172** Point source maps for every range, map and argument

* `C72_reuse_refuted`: The map of a point source is added to what the vector passed in holds: filling the same vector twice doubles the map.
* `C72_partial_range_refuted`: With PSF corrections a range of energies that does not start at the first one is undefined behaviour: the corrections loop runs over all energies.
* `C72_verbose_refuted`: Progress output (on by default) for a map with fewer than 20 cells divides by zero.
* `C72_one_row_refuted`: The adaptive PSF estimate on a map one pixel high reads a row that does not exist.
* `C72_annular_refuted`: The annular PSF estimate is 0/0 in pixels off the sky, whose solid angle is zero.
* `C72_hpx_point_refuted`: Without convolution, HEALPix maps hold the exposure times the solid angle of a pixel; maps on a plane hold the exposure.
* `C72_psf_exposure_refuted`: Without an exposure map, the exposure is read from the PSF by position although the PSF's energies are extended for energy dispersion: every layer gets the exposure of a lower energy.

**C173** Every model survives XML files, and failures leave no trace

* `C73_flags_refuted`: apply_edisp, apply_psf and apply_exposure are read from XML files but never written: a source with a flag off comes back with it on.
* `C73_escape_refuted`: Text is written to XML files without escapes: a quote in a source name makes a file that cannot be read, and an entity changes the name.
* `C73_multiple_refuted`: MultipleBrokenPowerLaw is registered under that name but writes and expects 'MultipleBPL': no XML file can hold one.
* `C73_composite_refuted`: reReadXml throws on composite sources: a model with one cannot be read again from its own file.
* `C73_half_refuted`: When reReadXml throws at a composite, sources earlier in the file have already been changed.
* `C73_position_refuted`: reReadXml does not restore a position that moved by at most 1e-4 radians (20 arc seconds).
* `C73_no_position_refuted`: A point source whose file gives no position is put at (0, 0) without an error.
* `C73_knots_refuted`: reReadXml sets the energy parameters of a PiecewisePowerLaw (or MultipleBPL) but not the energies the function uses.
* `C73_exposure_refuted`: SourceFactory passes requireExposure as the verbose argument of PointSource: exposures of point sources are always computed.
* `C73_atomic_refuted`: readXml into a model with a source of the same name throws after adding the sources that come before it.
* `C73_type_refuted`: A source whose type is misspelt is left out of the model without an error.
* `C73_flux_refuted`: write_fluxXml writes a power law of index 2 for every source, and nothing of the shape of a diffuse source.
* `C73_coordinate_refuted`: A coordinate that is not a number is read as 0 without an error: the source is put at right ascension or declination 0 (SourceFactory.cxx 153-164, 365-383).

**C174** Vectors, maps, spectra and files of source maps: where the claims fail

* `C74_plain_sparse_refuted`: Adding a sparse map without its spectrum always throws: `int ie = -1` is compared with an unsigned size (SourceMap.cxx 781-783).
* `C74_edge_refuted`: For a sparse map the range of pixels ends with upper_bound(kmax*npix), which includes pixel kmax*npix: if it is stored, the write is one past the end of the vector (SourceMap.cxx 778, 829).
* `C74_stale_refuted`: addToVector_full and subtractFromVector_sparse use the spectral values of the last refresh, subtractFromVector_full and addToVector_sparse those of the current parameters: after a parameter change subtracting does not undo adding, and the result depends on how the map is stored (SourceMap.cxx 741-836).
* `C74_twice_refuted`: computeModelMap resizes the vector but does not clear it: a vector used twice holds twice the counts (SourceMapCache.cxx 337-369).
* `C74_kept_refuted`: The single-source computeModelMap erases a map it had to make even if all source maps are to be kept in memory; the list version keeps it (SourceMapCache.cxx 344-348, 363-366).
* `C74_uncomputed_refuted`: For a point source whose map is neither in memory nor in the file, when point sources are not computed, a null pointer is stored and dereferenced (SourceMapCache.cxx 131-147, 341-343).
* `C74_outside_refuted`: countsSpectrum(src, false) divides by the model outside the fitted range of planes, where it is zero, and returns NaN (BinnedLikelihood.cxx 935-966).
* `C74_split_refuted`: With 500 or more sources the maps are saved in <file>_0.fits, <file>_1.fits, ..., but are looked for in <file> only (SourceMapCache.cxx 281-290, 125-129).
* `C74_overwritten_refuted`: saveSourceMaps("") tests whether the file named "" exists, so it overwrites the source maps file in use with a fresh counts map, and maps saved earlier that are not in memory are lost (BinnedLikelihood.cxx 459-472).

**C175** The fit by expectation maximisation: where the claims fail

* `C75_faint_source_refuted`: EM fit: pairs of event and source with weight at most 0.01 are ignored, so a source that is faint in every event keeps only its predicted counts in its statistic and is fitted away; the likelihood falls although the optimizer is exact (OptEM.cxx 63-64, OneSourceFunc.cxx 46-50).
* `C75_vanishing_flux_refuted`: EM fit: a flux density below 1e-20 is skipped, which counts as logarithm zero and is better than any flux density below one; the best parameters can make an event impossible (OneSourceFunc.cxx 49-50).
* `C75_no_events_refuted`: EM fit: `oldLogL == 0.` is the mark of the first round; if the statistics add up to zero (no events, no predicted counts) the loop never ends (OptEM.cxx 90).
* `C75_many_parameters_refuted`: EM fit: the quartic for the tolerance is negative from about 1910 free parameters on, so with 2000 or more the loop never ends (OptEM.cxx 90, 109-110).
* `C75_stale_refuted`: EM fit: findMin changes the sources but neither the parameter list nor the cached predicted counts of the object; value() afterwards combines new flux densities with old predicted counts (OptEM.cxx 23-97, LogLike.cxx 67-74, 343-352).
* `C75_quantile_refuted`: The tolerance is documented as the chi-squared value of cumulative probability 0.683; for 10 degrees of freedom that probability is above 0.72 (OptEM.cxx 99-113).

**C176** Exposure of diffuse sources: where the claims fail

* `C76_odd_refuted`: With an odd number of pixels the reference pixel of a computed exposure map is half a pixel beside its middle: nlon/2 is an integer division (ExposureMap.cxx 139).
* `C76_one_refuted`: A map of one energy or one column is a division by zero in its steps (ExposureMap.cxx 134, 141).
* `C76_negative_refuted`: Outside the energy range of the exposure map the exposure is extrapolated on a straight line and can be negative although all exposures of the map are positive (ExposureMap.cxx 95-116).
* `C76_single_energy_refuted`: With an exposure map of one energy both ways of integrating a diffuse source read outside the vectors (ExposureMap.cxx 97-111, MapCubeFunction2.cxx 166-184).
* `C76_zero_plane_refuted`: If the exposure of a source is zero at one energy of the exposure map and positive at the next, integrating over its own map throws (MapBase.cxx 222-235).
* `C76_prefactor_refuted`: The parameter Normalization (Prefactor) is part of the value of a map cube (map) but the map-based integral ignores it, so predicted counts and event densities are normalised differently (MapCubeFunction2.cxx 54-59, 135-185).
* `C76_two_ways_refuted`: Setting MAP_BASED_NPRED changes the exposures between the energies of the exposure map, even for a source whose totals agree: one way is linear in log energy, the other a power law.
* `C76_flat_healpix_refuted`: A HEALPix template of one plane can be evaluated but not integrated over its map: the plane after the last is read unless the exposure map's energies are all 100 MeV (SpatialMap.cxx 100-112, HealpixProjMap.cxx 384-427, ProjMap.cxx 174-179).
* `C76_failed_refuted`: A calculation of the exposure that throws leaves the new energies with fewer exposures; the predicted counts then read outside the vector (DiffuseSource.cxx 56-90).

**C177** Counts maps: where the claims fail

* `C77_no_edges_refuted`: With no energy edges the widths and centres of another map stay in the output vector (CountsMapBase.cxx 46-67).
* `C77_few_cells_refuted`: The progress display of the alpha weights computes idx % (ndata/20): an integer division by zero for a map of fewer than 20 cells (CountsMapBase.cxx 100-124).
* `C77_sizes_refuted`: Combining background maps of unequal size reads past the end of the shorter one (CountsMapBase.cxx 100-124).
* `C77_short_alpha_refuted`: A combined weights map with fewer cells than the background leaves the later cells without their combined weight, silently (CountsMapBase.cxx 126-148).
* `C77_negative_refuted`: Backgrounds below zero, which a convolution can produce, give weights that are zero or negative, or a division by zero (CountsMapBase.cxx 91-148).
* `C77_partial_sky_refuted`: The effective background of a HEALPix map of part of the sky reads the convolved whole-sky map at the local pixel number (CountsMapHealpix.cxx 144-154).
* `C77_edge_pixel_refuted`: A pixel with its centre on the sky but a corner off it is put at the origin of the coordinates with no solid angle (CountsMap.cxx 587-607).
* `C77_off_centre_refuted`: The test whether a map is centred truncates both sides to integers: a reference pixel 0.2 pixels beside the middle conforms (CountsMap.cxx 631-638).
* `C77_energy_step_refuted`: CDELT3 of a map with n logarithmic energy bins is log(emax/emin)/(n-1); for one bin it is not a number (CountsMap.cxx 351-363).
* `C77_range_map_refuted`: The map of a range of energies has two axes: asking for its third dimension or writing its header reads past the end of the list of axes (CountsMapBase.cxx 313-326, 384-391, CountsMap.cxx 498-518).
* `C77_range_counts_refuted`: The map of a range of energies has the energies of the range but the counts of other planes (CountsMapBase.cxx 313-326 with the projection of HistND).
* `C77_healpix_events_refuted`: A HEALPix counts map finds the numbers of the pixel and energy bin of an event and then looks these numbers up again as if they were an energy: with a first edge above the number of bins no event is counted (CountsMapHealpix.cxx 163-181).
* `C77_healpix_within_refuted`: For the same reason no direction is within the bounds of such a map (CountsMapHealpix.cxx 183-196).
* `C77_healpix_copy_refuted`: The copy constructor of a HEALPix counts map does not copy its radius; translating pixel numbers of the copy reads an uninitialised member (CountsMapHealpix.cxx 67-74).
* `C77_healpix_from_map_refuted`: Making a HEALPix counts map from an intensity map reads past the end of the energies (CountsMapHealpix.cxx 95-97).
* `C77_healpix_weights_file_refuted`: Writing a HEALPix map as a weights map deletes its table twice (CountsMapHealpix.cxx 225, 233).

**C178** Composite sources: where the claims fail

* `C78_cached_refuted`: A composite hands the same cached response to all its members: in an unbinned fit every point source in it is given the response at the place of the first one (CompositeSource.cxx 88-116, PointSource.cxx 105-115).
* `C78_own_derivative_refuted`: The derivative of a composite's density by a parameter of its own spectrum is the sum of the members' derivatives by their parameter of that name times its spectrum, or an exception if a member has none (CompositeSource.cxx 118-156).
* `C78_flux_refuted`: The flux of a composite is the integral of its own spectrum; the members do not enter (CompositeSource.cxx 164-185).
* `C78_npred_refuted`: computeExposure of a composite throws, its exposure stays empty, and its predicted counts read past the end of it (CompositeSource.cxx 159-162, Source.cxx 66-81).
* `C78_unloaded_refuted`: Merging a source whose map has not been made yet throws after the source has left the model; it is then in neither (CompositeSource.cxx 218-229, SourceMapCache.cxx 175-182).
* `C78_stale_refuted`: Splitting leaves the map of the composite in the cache; the next composite of the same name is given it, whatever its members (SourceModel.cxx 263-281, SourceMapCache.cxx 112-147).
* `C78_fixed_image_refuted`: A fixed source under the single fixed map ignores the map handed over by the composite: after merging and splitting an image set by the user is replaced by the computed one (BinnedLikelihood.cxx 323-339, 864-902).
* `C78_collision_refuted`: Splitting throws at the first member whose name is in use; the composite and the members not yet moved are then in no model (SourceModel.cxx 263-281).

**C179** Counts spectra: where the claims fail

* `C79_zero_bounds_refuted`: setEbounds with nbounds = 0 loops to 2^64 - 1, filling memory until an exception (CountsSpectra.cxx 31).
* `C79_one_bound_refuted`: setEbounds with nbounds = 1 is accepted: the only bound is emax, there are no bins, and all spectra are empty (CountsSpectra.cxx 23-35, 217-221).
* `C79_reversed_refuted`: setEbounds with emin > emax is accepted, and no event is counted (CountsSpectra.cxx 23-35, EventContainer.cxx 239-265).
* `C79_file_lost_refuted`: writeTable removes the old file before anything is checked: without bounds it throws and leaves an empty table (CountsSpectra.cxx 106-115).
* `C79_outside_limits_refuted`: countsSpectrum(source, false) while the energies are limited by set_klims divides by the model, which is zero outside of the limits (BinnedLikelihood.cxx 935-966, 577-591).

**C180** Scans of a normalisation: where the claims fail

* `C80_left_at_last_refuted`: scan_norm_binned leaves the normalisation at the last value of the scan instead of the best or the former one, and always free, even if it was fixed before (ScanUtils.cxx 136-157).
* `C80_first_error_refuted`: scan_norm_binned takes uncertainies[0], the standard deviation of the first free parameter of the model, as that of the normalisation (ScanUtils.cxx 120).
* `C80_bounds_refuted`: The scan always reaches at least 2.5; a normalisation with a lower upper bound cannot be scanned, setValue throws (ScanUtils.cxx 123, 143).
* `C80_klims_refuted`: sed_binned resets the energy limits to (0, nebins + 1), one too many; the next value() reads beyond the counts (ScanUtils.cxx 187).
* `C80_summed_klims_refuted`: set_klims of a summed likelihood looks up kmin twice, so that every component gets an empty energy range (FitScanner.cxx 904-916).
* `C80_unknown_refuted`: scan_norm_binned with the name of a source that is not in the model uses a null pointer (ScanUtils.cxx 89-90).
* `C80_flat_refuted`: With an uncertainty of zero and a best value of 2.5 or more all values of the scan are the same (ScanUtils.cxx 122-130).

**C181** HEALPix sky maps: where the claims fail

* `C81_columns_refuted`: The test find(...) >= 0 on an unsigned number is always true: every column of a HEALPix file becomes a plane, so that a PIX column is used as the map at the first energy (HealpixProjMap.cxx 161).
* `C81_single_file_refuted`: A HEALPix file with one column gets the energy 100, whatever its energy extension says (HealpixProjMap.cxx 110-187).
* `C81_single_energy_refuted`: operator()(dir, energy) of a map with one plane reads a second plane at any other energy than that of the plane (HealpixProjMap.cxx 391-427).
* `C81_index_refuted`: check_energy_index accepts k equal to the number of planes, and the plane is read past the end (ProjMap.cxx 174-179).
* `C81_tiny_refuted`: At the energy of a plane the value is returned before tiny negative values are lifted (HealpixProjMap.cxx 408-422).
* `C81_layer_refuted`: convolve returns a map with one plane but all the energies and the old integrals; its second plane is read past the end (HealpixProjMap.cxx 448-472).
* `C81_units_refuted`: convolve compares the size of the pixels in degrees with a radius in radians, so that maps are made finer needlessly (HealpixProjMap.cxx 474-483).
* `C81_rebin_two_refuted`: rebin passes nside / factor to the Healpix_Map constructor that takes the order: a factor of two fails for every map (HealpixProjMap.cxx 562-579).
* `C81_rebin_refuted`: When rebin succeeds, its planes never have nside / factor; the projection, the solid angle and the integrals are those from before, and the argument average is not used (HealpixProjMap.cxx 562-579).

**C182** Priors, errors and scans of the fit scanner: where the claims fail

* `C82_subset_refuted`: latchReducedMatrix reduces the matrix to the constrained parameters but not the central values: every evaluation of a prior on a strict subset raises an exception (FitScanner.cxx 287-331).
* `C82_global_refuted`: buildPriorsFromExternal tests m_prior_bkg where m_global_prior_bkg is meant: a global prior made after a local one updates a null pointer (FitScanner.cxx 1283).
* `C82_fixed_refuted`: buildPriorsFromCurrent with the test source keeps nBkgModel() parameters, counting fixed sources: with one fixed source the test source's parameter becomes part of the prior and every evaluation fails, with more an exception is raised (FitScanner.cxx 1328-1330).
* `C82_fixed_global_refuted`: baseline_newton constrains all sources, but the covariance has the free ones: with fixed sources the global prior with the test source has a matrix that does not match its central values, and every evaluation fails (FitScanner.cxx 2243-2244, 287-331).
* `C82_error_scale_refuted`: signalUncertainty_quad solves x^2 / variance + gradient x = delta, without the factor 1/2 of the parabola: at the maximum the log-likelihood has dropped by delta / 2, and the errors are too small by the square root of two (FitScanner.cxx 1553-1571).
* `C82_precise_refuted`: For variances below 1e-10 signalUncertainty_quad returns delta / gradient, truncated to an integer, as its status, and leaves the errors as they were (FitScanner.cxx 1557-1560).
* `C82_scan_prior_refuted`: scanNormalization always uses the local prior, whatever prior the fit used (FitScanner.cxx 1504).
* `C82_scan_full_refuted`: scanNormalization without other free sources sums m_targetRedModel even if models are not reduced and it is empty (FitScanner.cxx 1518).
* `C82_small_reference_refuted`: extract_init_priors_from_model drops the prior of a source whose reference value is below 1e-15, negative ones included (FitScanner.cxx 1850-1856).

**C183** Maps, matrices and parameters written to files: where the claims fail

* `C83_wcs_partial_map_refuted`: replace_image_from_float_vector_wcs copies the planes kmin to kmax of the vector, but a partial source map has only kmax - kmin planes: saving one with kmin > 0 reads past its end (FileUtils.cxx 386-392, SourceMapCache.cxx 534-585).
* `C83_dense_stale_refuted`: replace_image_from_float_vector_healpix leaves the columns of the old map: with fewer planes the last planes of the old map are read back (FileUtils.cxx 398-460, 91-127).
* `C83_sparse_stale_refuted`: replace_image_from_sparse_vector_healpix does not shorten the table: the last rows of the old map stay, keys are not sorted any more and look-ups give wrong or undefined results (FileUtils.cxx 463-546).
* `C83_sparse_edisp_refuted`: A sparse source map with the planes that are added for the energy dispersion raises an exception on writing: planes are compared with the energies of the counts map (FileUtils.cxx 534-537).
* `C83_sparse_unreadable_refuted`: Up to ten unreadable rows become entries of pixel 0, plane 0; within the table they break the order of the keys, so that look-ups of good entries fail (FileUtils.cxx 160-168).
* `C83_ebounds_refuted`: read_ebounds_to_vector uses an uninitialised upper energy for an empty table, and drops the upper edge of a bin followed by a gap (FileUtils.cxx 58-75).
* `C83_drm_refuted`: read_drm_from_table makes a Drm with no added energies, but keeps the rows of those: convolve uses the rows of the wrong true bins (FileUtils.cxx 843-884, Drm.cxx 78-111).
* `C83_drm_edges_refuted`: read_drm_from_table takes the lower edges of the second to last row as energies, right only for one added energy at each end: without added energies the first and the last are lost, with two the matrix is read past the ends of its rows, with one row an empty vector is read (FileUtils.cxx 866-880).
* `C83_parameters_back_refuted`: read_parameters_from_table raises an exception for every table that write_model_parameters_to_table writes: the function name in the table is not "Spectrum", the only one getParam accepts (FileUtils.cxx 777, SourceModel.cxx 354-364).
* `C83_parameters_swapped_refuted`: read_parameters_from_table passes source, function and parameter name to getParam, which takes parameter, function and source name (FileUtils.cxx 777).
* `C83_long_names_refuted`: Names are written to columns of 32 characters: sources with the same first 32 characters get the same rows (FileUtils.cxx 644-646).
* `C83_weights_map_refuted`: CountsMapHealpix::writeAsWeightsMap deletes the table a second time at its end (CountsMapHealpix.cxx 225, 233).

**C184** The checks of data selections by the tools: where the claims fail

* `C84_gti_warning_refuted`: No tool passes gtiWarningOnly = false: livetime cubes and exposure maps of other times than the events' only give a warning (AppHelpers.h 119-142, AppHelpers.cxx 761-768).
* `C84_gti_number_refuted`: If the numbers of GTI cuts of the two files differ, checkTimeCuts prints gti_start_diffs and gti_stop_diffs without having set them (AppHelpers.cxx 740, 828-853).
* `C84_gti_zero_refuted`: If one file has additional intervals after the common ones, the reported differences are zero (AppHelpers.cxx 843-848).
* `C84_no_energy_refuted`: checkExpMapCuts needs an ENERGY cut in both files: without, getRangeBounds raises std::out_of_range although all energies are selected in both (AppHelpers.cxx 91).
* `C84_hole_refuted`: checkExposureMap_wcs looks only at the border of the counts map: pixels inside that are not covered are not noticed (AppHelpers.cxx 968-1008).
* `C84_corner_refuted`: checkExposureMap_wcs asks for the directions of all border pixels: a counts map with corners outside of the projection (all-sky Aitoff maps) is refused with an exception, whatever the exposure map covers (AppHelpers.cxx 996-999).
* `C84_evtype_refuted`: With irfs = CALDB the evtype parameter is silently ignored if the file has an EVENT_TYPE selection (AppHelpers.cxx 497-507).
* `C84_unbinned_class_refuted`: createResponseFuncs of an unbinned analysis, if the exposure map has no EVENT_CLASS cut, looks in the cmap parameter, a file of another analysis, instead of the event file, and raises an exception if there is no such parameter (AppHelpers.cxx 478-493).
* `C84_none_refuted`: createResponseFuncs of a binned analysis opens the file "none" if that is the value of bexpmap; only expmap is tested for it (AppHelpers.cxx 458-471).
* `C84_class_refuted`: responseFuncs reads respcombos out of range for lower ends of the event class above 4 or below -1 (AppHelpers.cxx 400).

**C185** Sums of livetime cubes, source probabilities and response functions of events: where the claims fail

* `C85_ltsum_atomic_refuted`: gtltsum copies the first file to the output before it compares zenith angles and sizes: after the exception the output exists, or an old one is replaced, and holds the first file alone (gtaddlivetime.cxx 82-85).
* `C85_ltsum_tables_refuted`: If the WEIGHTED_EXPOSURE tables cannot be added, the output keeps the summed EXPOSURE beside the WEIGHTED_EXPOSURE of the first file (gtaddlivetime.cxx 84-85).
* `C85_ltsum_overlap_refuted`: gtltsum does not look for overlapping times: the same file given twice doubles all livetimes within the same TSTART and TSTOP (gtaddlivetime.cxx 170-217).
* `C85_prob_rows_refuted`: gtsrcprob reads the events with the region-of-interest cut but walks through all rows of the file: after a rejected event every row gets the probability of a later event (gtsrcprob.cxx 164, 221-237; EventContainer.cxx 152).
* `C85_prob_rejected_refuted`: For the same reason gtsrcprob ends with std::out_of_range from events.at(j) if any event was rejected, with the wrong rows already in the output (gtsrcprob.cxx 230).
* `C85_prob_unknown_refuted`: A name in the list of sources that is not in the model gets a column of zeros (operator[] of std::map, gtsrcprob.cxx 236).
* `C85_prob_columns_refuted`: A source named like a column of the event file (energy, time, ra) overwrites that column (gtsrcprob.cxx 197-198, 236).
* `C85_prob_case_refuted`: Two sources whose names differ only in case make gtsrcprob fail, as columns are compared in lower case (gtsrcprob.cxx 197-199); this relies on tip refusing a second column of the same name.
* `C85_prob_zero_refuted`: If the densities of all sources vanish for an event, 0/0 is written (gtsrcprob.cxx 236).
* `C85_asked_types_refuted`: gtfindsrc, gttsmap and gtsrcprob load the response functions of the evtype parameter, but getEvents types events by the file's own EVENT_TYPE selection (front and back without one) before any cut: an event of a type not asked for makes respPtr return a null pointer that is dereferenced (EventContainer.cxx 61-69, 130-136; AppHelpers.cxx 528-547).
* `C85_no_type_refuted`: For an event without a type of the mask, log(0)/log(2) is converted to an integer (EventContainer.cxx 130-131).

**Outside the properties** (read in the code, no theorem)

* CompositeSource::fluxDensity passes the same cached response to all of its components.
* SourceMap::addToVector without the spectrum always throws (ie = -1 compared as an unsigned number).
* fitLogNorms_newton does not rescale the diagonal of the covariance and returns a log-likelihood of zero.
* RoiCuts::setCuts after readCuts frees the same cuts twice.
* PointSource::fluxDensityDeriv with an inclination passes an angle where a direction is expected.

## 6. Axioms per theorem

Output of `Print Assumptions`, the same set grouped together (822 theorems in the manifest).

No axioms, closed under the global context (174 theorems):

`C01_sparse_reads_like_dense`, `C02_key_value_round_trip`, `C02_map_round_trip`, `C02_dense_round_trip`, `C02_dense_export`, `C02_range_map_export`, `C03_add_to_dense`, `C03_subtract_undoes_add`, `C04_kahan_totals`, `C05_index_bijection`, `C05_coordinate_index`, `C05_fills_accumulate`, `C05_weights_in_selects`, `C05_total_conserved`, `C05_wrong_arity_throws`, `C06_set_get_slice`, `C06_get_slice_is_cells`, `C08_elementwise`, `C08_size_mismatch_throws`, `C08_scalar`, `C08_set_value`, `C08_inner_products`, `C08_inner_product_symmetric`, `C08_inner_product_bilinear`, `C08_subtract_undoes_add`, `C08_reshape`, `C15_refines_map`, `C15_throwing_call_changes_nothing`, `C15_ownership`, `C15_reachable_worlds_are_well_formed`, `C16_set_values_round_trip`, `C16_set_params_round_trip`, `C16_bad_length_changes_nothing`, `C17_give_conserves_partial`, `C17_give_succeeds`, `C17_steal_conserves_partial`, `C17_merge_conserves_partial`, `C17_split_conserves_partial`, `C17_give_loses_source_refuted`, `C17_split_loses_source_refuted`, `C17_merge_loses_sources_refuted`, `C18_summed_set_free_round_trip`, `C18_summed_tie_gives_one_value`, `C18_summed_throwing_tie_loses_parameter_refuted`, `C18_reachable_composites_are_well_formed`, `C18_set_free_round_trip`, `C18_tie_gives_one_value`, `C18_set_tied_value`, `C18_mixed_tie_misassigns_refuted`, `C18_fixing_a_group_overruns_refuted`, `C18_parameter_in_two_groups_refuted`, `C18_throwing_tie_loses_parameter_refuted`, `C18_tie_different_names_refuted`, `C18_fixed_group_diverges_refuted`, `C19_params_in_entry_order`, `C20_summed_find_index_partial`, `C20_summed_fixed_group_refuted`, `C20_find_index_partial`, `C20_fixed_group_shifts_refuted`, `C28_round_trip`, `C28_keys_distinct`, `C28_idempotent`, `C28_stable`, `C28_unknown_throws`, `C29_reads`, `C29_writes`, `C32_history`, `C41_same_map`, `C41_errors`, `C42_same_map`, `C42_has_map`, `C43_resize_reads_partial`, `C43_resize_sets_size_refuted`, `C43_push_after_shrink_refuted`, `C56_rebuilt`, `C59_load_empty_refuted`, `C62_count`, `C62_add`, `C69_corners`, `C70_moveable`, `C70_moved_reference`, `C70_direction`, `C70_direction_unknown`, `C73_text`, `C73_registry`, `C74_add`, `C74_subtract`, `C74_size`, `C74_storage`, `C74_saved`, `C74_others_kept`, `C74_found_again`, `C74_existing_file`, `C75_parameters`, `C77_alpha_none`, `C77_keywords`, `C77_not_3d`, `C78_merge`, `C78_round_trip`, `C80_freeze`, `C80_free`, `C83_dense_round_trip`, `C83_dense_replace`, `C83_wcs`, `C83_wcs_replace`, `C83_sparse_round_trip`, `C83_sparse_outside`, `C83_sparse_unreadable`, `C83_parameters`, `C83_parameters_count`, `C84_files`, `C84_event_types`, `C84_mask`, `C84_response_types`, `C84_response_file`, `C84_border`, `C85_event_type`, `C85_irfs_loaded`, `C85_event_irfs`, `C85_event_mask`, `C85_selected_irfs`, `C02_dense_export_nonempty_refuted`, `C02_range_export_partial`, `C02_range_export_overruns_refuted`, `C02_range_key_value_refuted`, `C06_sum_range_partial`, `C06_sum_range_first_bin_refuted`, `C06_sum_range_axis_refuted`, `C06_sum_range_1d_refuted`, `C16_vector_is_concatenation_partial`, `C16_stale_after_out_of_bounds_refuted`, `C16_overrun_after_refused_set_refuted`, `C28_other_keys_refuted`, `C41_history_partial`, `C41_null_refuted`, `C41_rebuild_refuted`, `C42_history_partial`, `C42_right_file_partial`, `C42_object_map_partial`, `C42_names_refuted`, `C42_copy_refuted`, `C42_delete_pointer_refuted`, `C42_rebin_refuted`, `C42_failed_read_refuted`, `C56_history_partial`, `C56_refuted`, `C60_no_data`, `C64_klims_refuted`, `C69_factor_zero_refuted`, `C70_limits_refuted`, `C70_reference_refuted`, `C74_plain_sparse_refuted`, `C74_split_refuted`, `C74_overwritten_refuted`, `C78_unloaded_refuted`, `C78_stale_refuted`, `C78_fixed_image_refuted`, `C78_collision_refuted`, `C79_file_lost_refuted`, `C80_summed_klims_refuted`, `C83_wcs_partial_map_refuted`, `C83_dense_stale_refuted`, `C83_sparse_stale_refuted`, `C83_sparse_edisp_refuted`, `C83_sparse_unreadable_refuted`, `C83_weights_map_refuted`, `C84_hole_refuted`, `C84_corner_refuted`, `C84_evtype_refuted`, `C84_unbinned_class_refuted`, `C84_none_refuted`, `C84_class_refuted`, `C85_asked_types_refuted`, `C85_no_type_refuted`

`ClassicalDedekindReals.sig_forall_dec` (33 theorems):

`C12_count_mismatch_throws`, `C23_gradient_refuted`, `C30_transpose`, `C49_switch_without_fixed_refuted`, `C49_same_setting_partial`, `C54_written_partial`, `C54_old_form_refuted`, `C62_value_refreshes`, `C68_weighed`, `C69_fold`, `C76_read`, `C76_short_image`, `C79_source_counts`, `C79_source_fluxes`, `C81_nearest`, `C82_subset_matrix`, `C83_drm`, `C83_drm_table`, `C85_ltsum_compatible`, `C62_set_get_partial`, `C62_tied_partial`, `C62_frame_partial`, `C62_free_in_later_refuted`, `C62_parameter_list_partial`, `C74_edge_refuted`, `C77_no_edges_refuted`, `C77_range_map_refuted`, `C77_healpix_from_map_refuted`, `C78_npred_refuted`, `C81_index_refuted`, `C81_layer_refuted`, `C83_drm_edges_refuted`, `C83_long_names_refuted`

`ClassicalDedekindReals.sig_forall_dec`, `FunctionalExtensionality.functional_extensionality_dep` (262 theorems):

`C07_sum_of_trapezoids`, `C12_refactor_preserves_total`, `C13_model_is_sum`, `C19_joint_gradient`, `C21_filled_pixels_partial`, `C21_cannot_remove_weights_refuted`, `C22_counts_spectrum_partial`, `C22_wrong_size_is_refused`, `C23_value_partial`, `C23_gradient_partial`, `C23_freeing_changes_nothing_partial`, `C23_delete_after_change_refuted`, `C23_delete_after_freeing_refuted`, `C23_name_reused_refuted`, `C23_set_image_refuted`, `C23_corrections_refuted`, `C24_counts_of_a_source`, `C24_add_then_subtract`, `C25_model_sum`, `C27_nobs`, `C27_one_bin`, `C37_jump_excludes`, `C40_history_partial`, `C40_partition`, `C40_fixed`, `C40_set_param_partial`, `C40_set_param_refuted`, `C40_assign_refuted`, `C40_assign_other_refuted`, `C44_reduced_selects_layers_partial`, `C44_unreduced_refuted`, `C46_plane_totals`, `C46_masked_map`, `C46_add_then_subtract`, `C49_switch_refuted`, `C53_shares`, `C54_order_refuted`, `C54_unused_first_refuted`, `C54_two_unused_refuted`, `C54_case_refuted`, `C54_clobber_refuted`, `C57_value`, `C59_fraction`, `C59_no_gtis`, `C59_degenerate`, `C59_bins`, `C60_read`, `C60_livetimefrac`, `C61_tmin`, `C62_value`, `C63_changed`, `C63_report`, `C63_same`, `C64_grid`, `C64_values`, `C64_sum`, `C65_build`, `C65_test`, `C67_map`, `C67_allsky`, `C67_find`, `C67_bounds`, `C68_outside`, `C68_inside`, `C68_nearest`, `C68_bilinear`, `C68_border`, `C68_centre`, `C68_bounds`, `C68_wrap`, `C69_roundtrip`, `C69_negative`, `C69_extremes`, `C70_line`, `C70_defined`, `C70_node`, `C70_profile_bounds`, `C70_jump`, `C70_template`, `C72_bilinear`, `C72_bilinear_grid`, `C72_hpx_psf`, `C72_hpx_map`, `C73_roundtrip`, `C73_stable`, `C73_reread`, `C73_keeps`, `C73_names`, `C73_duplicate`, `C73_no_spectrum`, `C73_no_document`, `C73_flags_read`, `C74_undo`, `C74_summed_map`, `C74_model_map`, `C74_single_map`, `C74_counts_spectrum`, `C74_spectra_add_up`, `C75_weights`, `C75_tolerance`, `C77_alpha`, `C77_alpha_zero`, `C77_alpha_order`, `C77_weights`, `C77_equal_components`, `C77_pixels`, `C77_border`, `C77_events`, `C77_events_split`, `C77_within`, `C77_pixel_numbers`, `C78_density`, `C78_density_one_point`, `C79_total`, `C79_table`, `C79_data_spectrum`, `C79_attributed`, `C80_scan`, `C80_grid`, `C80_succeeds`, `C80_sed`, `C81_interpolated`, `C82_external`, `C82_current`, `C82_gradient`, `C82_scan`, `C83_ebounds`, `C84_time_cuts`, `C84_time_differences`, `C84_expmap`, `C84_expmap_other`, `C85_ltsum_accepts`, `C85_ltsum_value`, `C85_ltsum_order`, `C85_ltsum_incremental`, `C85_ltsum_other_bins`, `C85_prob_value`, `C85_prob_unknown_zero`, `C85_prob_defined`, `C85_prob_sum_one`, `C85_prob_range`, `C19_summed_gradient_partial`, `C19_summed_group_derivative_refuted`, `C19_summed_stale_output_refuted`, `C39_pixel_partial`, `C46_weighted_totals_partial`, `C46_reference_bin_refuted`, `C46_sparse_weighted_refuted`, `C46_undispersed_window_refuted`, `C57_complement_partial`, `C57_bounds_refuted`, `C57_refused_refuted`, `C57_constructor_refuted`, `C60_order_partial`, `C60_order_refuted`, `C60_tolerance_refuted`, `C61_accept_value`, `C61_accept_partial`, `C61_accept_refuted`, `C61_tmax_refuted`, `C61_strict_refuted`, `C62_gradient_partial`, `C62_fixed_in_one_refuted`, `C62_stale_refuted`, `C62_parameter_list_refuted`, `C63_flags_partial`, `C63_compare_model_partial`, `C63_action_partial`, `C63_flags_refuted`, `C63_removed_refuted`, `C63_added_refuted`, `C63_compare_model_refuted`, `C63_template_type_refuted`, `C63_template_removed_refuted`, `C63_relatch_refuted`, `C63_prior_type_refuted`, `C64_bounds_partial`, `C64_bounds_refuted`, `C65_history_partial`, `C65_update_partial`, `C65_par_scales_partial`, `C65_rebuild_refuted`, `C65_dropped_refuted`, `C65_zero_norm_refuted`, `C65_zero_update_refuted`, `C65_par_scales_refuted`, `C67_rotation_refuted`, `C67_rewrite_refuted`, `C67_nearest_energy_refuted`, `C68_last_column_refuted`, `C68_negative_refuted`, `C68_full_circle_partial`, `C68_full_circle_refuted`, `C68_index_partial`, `C68_index_refuted`, `C69_roundtrip_refuted`, `C69_inside_refuted`, `C70_step_refuted`, `C70_negative_refuted`, `C70_short_refuted`, `C70_template_refuted`, `C72_hpx_point_refuted`, `C73_flags_refuted`, `C73_escape_refuted`, `C73_multiple_refuted`, `C73_composite_refuted`, `C73_half_refuted`, `C73_position_refuted`, `C73_no_position_refuted`, `C73_knots_refuted`, `C73_exposure_refuted`, `C73_atomic_refuted`, `C73_type_refuted`, `C73_coordinate_refuted`, `C74_stale_refuted`, `C74_twice_refuted`, `C74_kept_refuted`, `C74_uncomputed_refuted`, `C74_outside_refuted`, `C77_few_cells_refuted`, `C77_sizes_refuted`, `C77_short_alpha_refuted`, `C77_negative_refuted`, `C77_edge_pixel_refuted`, `C77_off_centre_refuted`, `C77_range_counts_refuted`, `C77_healpix_events_refuted`, `C77_healpix_within_refuted`, `C77_healpix_copy_refuted`, `C78_cached_refuted`, `C78_flux_refuted`, `C79_outside_limits_refuted`, `C80_left_at_last_refuted`, `C80_first_error_refuted`, `C80_bounds_refuted`, `C80_klims_refuted`, `C80_unknown_refuted`, `C80_flat_refuted`, `C81_rebin_two_refuted`, `C81_rebin_refuted`, `C82_subset_refuted`, `C82_global_refuted`, `C82_fixed_refuted`, `C82_fixed_global_refuted`, `C82_scan_prior_refuted`, `C82_scan_full_refuted`, `C83_ebounds_refuted`, `C83_parameters_back_refuted`, `C83_parameters_swapped_refuted`, `C84_gti_warning_refuted`, `C84_gti_number_refuted`, `C84_gti_zero_refuted`, `C84_no_energy_refuted`, `C85_ltsum_atomic_refuted`, `C85_ltsum_tables_refuted`, `C85_ltsum_overlap_refuted`, `C85_prob_rows_refuted`, `C85_prob_rejected_refuted`, `C85_prob_unknown_refuted`, `C85_prob_columns_refuted`, `C85_prob_case_refuted`, `C85_prob_zero_refuted`

`ClassicalDedekindReals.sig_forall_dec`, `ClassicalDedekindReals.sig_not_dec`, `FunctionalExtensionality.functional_extensionality_dep` (61 theorems):

`C59_no_gtis_refuted`, `C59_unsorted_refuted`, `C59_overlap_refuted`, `C59_load`, `C59_load_sum`, `C60_axes`, `C67_inclination`, `C69_solid_angle`, `C69_solid_angle_positive`, `C70_centre_set`, `C70_centre_parameters`, `C70_centre_kept`, `C70_copy`, `C70_assign`, `C70_disk`, `C70_gauss`, `C70_resynchronised`, `C70_synchronised`, `C70_moved`, `C70_disk_range`, `C70_gauss_ring`, `C70_gauss_range`, `C70_radius`, `C70_radius_values`, `C71_rotation`, `C71_limits_inside`, `C71_split`, `C72_offsets`, `C72_sub_pixels`, `C72_undistorted`, `C72_radius`, `C77_bins`, `C77_background`, `C77_background_own_bin`, `C77_background_healpix`, `C82_init`, `C82_errors`, `C39_pixel_prefactor_refuted`, `C39_pixel_reuse_refuted`, `C60_axes_refuted`, `C60_exposure_partial`, `C60_exposure_late`, `C60_exposure_refuted`, `C69_pole_refuted`, `C70_getcenter_refuted`, `C70_norm_refuted`, `C70_stale_refuted`, `C70_assign_refuted`, `C70_zero_size_refuted`, `C70_move_refuted`, `C70_reread_refuted`, `C70_limits_partial`, `C70_limits_wrap_refuted`, `C70_radius_refuted`, `C72_one_row_refuted`, `C77_partial_sky_refuted`, `C77_healpix_weights_file_refuted`, `C81_units_refuted`, `C82_error_scale_refuted`, `C82_precise_refuted`, `C82_small_reference_refuted`

`ClassicalDedekindReals.sig_forall_dec`, `ClassicalDedekindReals.sig_not_dec`, `Classical_Prop.classic`, `FunctionalExtensionality.functional_extensionality_dep` (292 theorems):

`C07_integral_of_interpolant`, `C07_log_integral_of_interpolant`, `C07_interpolants_pass_through_nodes`, `C07_exact_affine`, `C07_linear`, `C07_additive`, `C07_nonneg`, `C09_expand_energies`, `C09_expand_increasing`, `C09_short_grid_unchanged`, `C09_log_ratios`, `C10_sparse_is_dense`, `C10_sparse_is_dense_npix`, `C10_negative_bin_masked_refuted`, `C10_weights_of_other_model_refuted`, `C11_throws_or_value`, `C11_weighted_throws_or_value`, `C11_permutation`, `C11_concatenation`, `C13_gradient_and_hessian`, `C13_small_weight_refuted`, `C14_damped_fit_partial`, `C14_undamped_fit_partial`, `C14_undamped_worse_refuted`, `C14_negative_lambda_refuted`, `C14_no_counts_refuted`, `C26_value_partial`, `C26_runs_partial`, `C26_refreshed_partial`, `C26_careful_partial`, `C26_fixed_change_refuted`, `C26_unset_bounds_refuted`, `C26_added_in_bounds_refuted`, `C26_moved_refuted`, `C26_after_throw_refuted`, `C30_convolution`, `C30_wrong_size`, `C30_conserves_counts`, `C30_power_law_continuation`, `C30_extrapolation`, `C31_corrections_partial`, `C31_measured_counts_partial`, `C31_rescaled_map`, `C31_weighted_true_counts_partial`, `C31_leading_empty_bin_refuted`, `C31_first_message_refuted`, `C31_weighted_true_counts_refuted`, `C32_doubles_partial`, `C32_doubles_refuted`, `C33_PowerLaw2`, `C33_LogParabola`, `C33_ScaleFactor`, `C33_FileFunction`, `C34_PLSuperExpCutoff_partial`, `C34_PLSuperExpCutoff2_partial`, `C34_PLSuperExpCutoff3_partial`, `C34_PLSuperExpCutoff4_partial`, `C34_ExpCutoff_partial`, `C34_BPLExpCutoff_partial`, `C34_zero_prefactor_refuted`, `C34_bounded_exponent_refuted`, `C34_BPLExpCutoff_refuted`, `C35_BrokenPowerLaw3`, `C36_PowerLaw2`, `C36_BrokenPowerLaw2`, `C37_ExpCutoff`, `C37_BandFunction`, `C37_BrokenPowerLaw2`, `C37_BrokenPowerLaw3`, `C37_MultipleBrokenPowerLaw`, `C37_PiecewisePowerLaw`, `C38_GaussianError_value`, `C38_LogGaussian_value`, `C38_derivative`, `C39_npred_value`, `C39_cell`, `C39_flux`, `C39_flux_value`, `C39_pixel_value`, `C40_derivative`, `C45_norms_stay_nonnegative`, `C47_rescaling_refuted`, `C47_binned_gradient_partial`, `C48_free_equals_fixed_partial`, `C48_reference_bin_refuted`, `C50_restore_partial`, `C50_fixed_change_refuted`, `C50_other_source_refuted`, `C50_bounds_refuted`, `C51_gradient_partial`, `C51_unsynchronised_refuted`, `C52_event_sums_partial`, `C52_fixed_change_refuted`, `C55_LogParabola`, `C55_ExpCutoffSEDPeak`, `C55_PLSuperExpCutoff`, `C55_PLSuperExpCutoff3`, `C55_PLSuperExpCutoff4`, `C55_SmoothBrokenPowerLaw`, `C55_MultipleBrokenPowerLaw`, `C55_PiecewisePowerLaw`, `C57_derivative`, `C58_whole`, `C61_energies`, `C61_energies_refused`, `C61_read`, `C66_build`, `C66_written`, `C66_monotone`, `C66_containment`, `C66_derivative`, `C66_value`, `C67_counts`, `C67_directions`, `C68_node`, `C68_power_law`, `C68_zero`, `C68_nonnegative`, `C68_enforced`, `C68_integral`, `C68_integral_node`, `C69_integrals`, `C69_integral_bounds`, `C69_rebin_sum`, `C69_rebin_mean`, `C69_factor_one`, `C69_geometry`, `C70_angular`, `C70_disk_normalised`, `C70_gauss_normalised`, `C70_disk_arc`, `C71_direction`, `C71_covers_once`, `C71_integrand`, `C71_range`, `C71_map_sum`, `C72_adaptive`, `C72_annular`, `C72_centre`, `C72_map`, `C72_corrected`, `C72_point`, `C73_flux`, `C73_flux_fails`, `C73_flux_file`, `C75_round`, `C75_fit_never_lowers`, `C75_gradient`, `C75_only_free_values`, `C75_stops`, `C75_nothing_free`, `C76_exposure`, `C76_at_plane`, `C76_linear`, `C76_nonneg`, `C76_map_cube`, `C76_spatial_map`, `C76_power_law_ends`, `C76_source`, `C76_no_map`, `C76_computed`, `C76_parts`, `C76_write_read`, `C76_centre`, `C77_centred`, `C78_member_derivative`, `C79_bounds`, `C79_binned_bounds`, `C79_counts_add_up`, `C79_observed`, `C81_power_law`, `C81_node`, `C81_nonnegative`, `C81_enforced`, `C81_source`, `C81_source_negative`, `C81_counts`, `C81_file`, `C81_weighed`, `C04_accumulator_totals_partial`, `C04_accumulator_zero_first_refuted`, `C30_nonnegative_partial`, `C30_linear_partial`, `C30_negative_refuted`, `C30_linear_refuted`, `C30_single_bin_refuted`, `C33_LogNormal_partial`, `C33_ExpCutoffSEDPeak_partial`, `C33_EblAtten_partial`, `C33_PiecewisePowerLaw_partial`, `C33_LogNormal_refuted`, `C33_ExpCutoffSEDPeak_refuted`, `C33_EblAtten_refuted`, `C33_PiecewisePowerLaw_refuted`, `C35_BrokenPowerLaw2_partial`, `C35_SmoothBrokenPowerLaw_partial`, `C35_SmoothDoubleBrokenPowerLaw_partial`, `C35_BandFunction_partial`, `C35_MultipleBrokenPowerLaw_partial`, `C35_BrokenPowerLaw2_refuted`, `C35_SmoothDoubleBrokenPowerLaw_refuted`, `C35_BandFunction_refuted`, `C35_zero_prefactor_refuted`, `C35_MultipleBrokenPowerLaw_refuted`, `C36_PowerLaw2_integral_partial`, `C36_PowerLaw2_integral_refuted`, `C36_BrokenPowerLaw2_integral_partial`, `C36_BrokenPowerLaw2_integral_refuted`, `C36_BrokenPowerLaw2_integral_from_break_refuted`, `C36_BrokenPowerLaw3_partial`, `C36_BrokenPowerLaw3_integral_partial`, `C36_BrokenPowerLaw3_integral_refuted`, `C37_BPLExpCutoff_partial`, `C37_BPLExpCutoff_refuted`, `C37_PLSuperExpCutoff4_refuted`, `C38_LogGaussian_value_partial`, `C38_LogGaussian_value_refuted`, `C38_GaussianError_derivatives_partial`, `C38_LogGaussian_derivatives_partial`, `C38_mean_refuted`, `C38_sigma_refuted`, `C38_scale_refuted`, `C39_npred_partial`, `C39_npred_refuted`, `C39_npred_range_partial`, `C39_one_source_partial`, `C39_pixel_rule_refuted`, `C55_SmoothBrokenPowerLaw_limits_partial`, `C55_SmoothBrokenPowerLaw_limits_refuted`, `C58_part_partial`, `C58_nonneg_partial`, `C58_grid_refuted`, `C58_below_refuted`, `C58_above_refuted`, `C61_accept_early_refuted`, `C61_read_again_refuted`, `C61_set_again_refuted`, `C66_integral_partial`, `C66_high_refuted`, `C66_blind_refuted`, `C67_lookup_partial`, `C67_wrap_refuted`, `C67_nearest_pixel_refuted`, `C67_edge_refuted`, `C67_roundtrip_partial`, `C67_reference_refuted`, `C67_planes_refuted`, `C68_single_refuted`, `C68_integral_refuted`, `C68_product_refuted`, `C69_oblong_refuted`, `C69_mirrored_refuted`, `C69_rebin_hole_refuted`, `C69_periodic_refuted`, `C70_angular_refuted`, `C70_unity_refuted`, `C71_pole_refuted`, `C71_phi_partial`, `C71_phi_refuted`, `C71_limits_partial`, `C71_limits_refuted`, `C72_reuse_refuted`, `C72_partial_range_refuted`, `C72_verbose_refuted`, `C72_annular_refuted`, `C72_psf_exposure_refuted`, `C73_flux_refuted`, `C75_faint_source_refuted`, `C75_vanishing_flux_refuted`, `C75_no_events_refuted`, `C75_many_parameters_refuted`, `C75_stale_refuted`, `C75_quantile_refuted`, `C76_odd_refuted`, `C76_one_refuted`, `C76_negative_refuted`, `C76_single_energy_refuted`, `C76_zero_plane_refuted`, `C76_prefactor_refuted`, `C76_two_ways_refuted`, `C76_flat_healpix_refuted`, `C76_failed_refuted`, `C77_energy_step_refuted`, `C78_own_derivative_refuted`, `C79_zero_bounds_refuted`, `C79_one_bound_refuted`, `C79_reversed_refuted`, `C81_columns_refuted`, `C81_single_file_refuted`, `C81_single_energy_refuted`, `C81_tiny_refuted`, `C83_drm_refuted`

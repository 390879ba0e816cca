# Formal model of CosmoMC (getdist, paramgrid, scripts, and parts of the Fortran sampler)

Plan written before the proofs; the per-property status is kept in MANIFEST.json.

## Method

* One group of files per topic in `rocq/theories`:
  `XModel.v` (executable Gallina model, branch by branch, each definition citing the
  source lines it mirrors), `XSpec.v` (small specification that does not mention the
  model's helpers, when the statement needs one), `XProofs.v` (lemmas), `XProps.v`
  (property theorems only, each closed by `exact`, with `Print Assumptions`, and
  `Example`s showing the hypotheses are met by non-trivial data).
* Python exceptions are values (`result`/`option` types); a mutating method returns the new state.
* Loops are structural recursion, folds, or fuel recursion with an explicit error value that
  the theorems exclude.
* Text is `list ascii` (8-bit characters; python's unicode strings are wider).
* Floating point arrays are modelled by exact rationals `Q` (or reals where `exp`/`sqrt` occur):
  rounding of IEEE arithmetic is NOT modelled.
* The file system is a finite map from names to contents, external programs and
  environment variables are function arguments.

## Plan per property

| id | model | theorem shape |
|----|-------|---------------|
| C01 | `fileLines`, `readFile` on lines | round trip, induction over the key list |
| C02 | `readFile` over a tree of files | refinement to "first definition in traversal order" |
| C03 | same | error iff second unprotected definition |
| C04 | `expand_placeholders` (index based loop, fuel) | refinement to token-wise substitution |
| C05 | `isSet`, `asType`, `bool`, `string` | decision rules |
| C06 | `readFile` comment list | refutation for DEFAULT files + positive theorem without the skip path |
| C07 | `ParamInfo.setFromString`/`string` | round trip |
| C08 | `mergeRenames` | refinement to connectivity closure |
| C09 | `numberOfName`, `parWithName`, `hasParam` | first-match spec |
| C10 | `deleteIndices`, `filteredCopy`, counts | refinement to position filter |
| C11 | `ParamBounds.__str__` and loader | round trip over tokens |
| C12 | `setRange`, `fixedValue` | history induction; refutation for clearing a bound |
| C13 | `rescaleParameter` | pointwise algebra over Q |
| C14 | `mergeCovmatWhereNew` | pointwise spec |
| C15 | `correlation` | pointwise algebra (reals, sqrt) ; refutation for merged matrices |
| C16, C17 | `thin_indices_single_samples` both branches | loop invariant, floor-difference spec |
| C18, C19, C20 | `Chains` / `WeightedSamples` row state machine | round trip + invariant over operation histories; refutation for stale offsets |
| C21 | `mean`, `var`, `cov` | algebra over Q |
| C22 | `confidence` | search lemma on sorted cumulative sums |
| C23 | `reweightAddingLogLikes`, `cool` | algebra over R with exp |
| C24 | `deleteFixedParams` two storage modes | refutation / positive part |
| C25 | `jobIndex` three dictionaries | invariant over histories; refutation for re-used names |
| C26 | `saveJobIndex` as list of file-system steps | all crash prefixes; refutation + exact set of bad crash points |
| C27 | `jobSettings`/`submitJob` arithmetic | integer arithmetic |
| C28 | `getDefaulted`/`extractValue` | decision rule |
| C29 | normed tags | permutation invariance via sorting |
| C30 | `makeItems` de-duplication | invariant over job list |
| C31 | `normed_name_item`, `resolveName` | search spec |
| C32 | predicates over file states | decision rules |
| C33 | `chainNames` | refutation against 1-based names |
| C34 | `runbatch` buffer | concat/group-size spec by induction |
| C35 | `makeGrid` dictionary updates | lookup spec |
| C36 | `filterChosen` | filter conjunction spec |
| C37 | `_make_unique` | refutation for 3 chains, positive for others |
| C38 | `getContourLevels` | search lemma |
| C39 | integrals, `normalize` | algebra over Q |
| C40 | `nearestFFTnumber` | sorted table search |
| C41 | circular vs linear convolution, slices | index algebra |
| C42 | `numberFigs` | arithmetic on decimal digits |
| C43 | table layout | permutation/row-column spec |
| C44 | limit tags | round trip |
| C45, C46 | cobaya info values | decision rules, non-mutation |
| C47 | `_binSamples`, `_make2Dhist` | arithmetic, sum preservation |
| C48 | `getFractionIndices` | search lemma |
| C49 | `getCombinedSamplesWithSamples` | algebra over Q |
| C50 | `writeThinData` | refutation + positive for the identity index list |
| C51 | `renameParam` | simultaneous substitution law |
| C52 | `deleteJobs` option flow | refutation + decision rules |
| C53 | `doCopy` | row trimming law, refutation for empty remainder |
| C54, C57 | `saveFile`, `fileLines` | file written, layout of lines; refutation for included files |
| C55, C56 | `saveKeyWords`, `updateRenames` | round trip, lookup by alias |
| C58 | `runbatch` run selection | submission condition |
| C59, C60 | `dataSet.add`, choice of proposal matrix | exact rule, first match; refutation for dictionaries |
| C61 | `ChainDirGrid` lookup | search spec |
| C62, C63 | `getLimits`, `DensityND.integrate` | interval spec, trapezoidal weights; refutations |
| C64 - C67 | caches, 2D convolution, auto-correlation, truncated Gaussian | sums over reals with the documented transforms |
| C68, C69 | `numberFigs`, `namesigFigs` | decimal arithmetic |
| C70 | `ResultTable` | rows have as many cells as the tabular has columns |
| C71 | `_setMargeLimits` | kind and bounds of each limit |
| C72 - C74 | cobaya ranges, names, burn-in | decision rules, refutations |
| C75 | `.minimum` writer (Fortran) and `BestFit.loadFromFile` | round trip |
| C76, C77 | Metropolis and dragging steps (Fortran) | detailed balance, over the random numbers as volume of boxes |
| C78, C79 | weights, step counts, MaxLike of a chain (Fortran) | invariant over all runs, refutation |
| C80 | thinning of weighted points (Fortran) | every t-th point of the expanded chain |
| C81 | blocks of parameters by speed (Fortran) | partition; slow = not in the fast list or not using fast-slow |
| C82 | blocks of fast parameters by likelihood (Fortran) | cut exactly at breaks; breaks are one place late |
| C83 | cycle of proposals (Fortran) | occurrences per period |
| C84 | mapping matrices of the proposal (Fortran) | sum of outer products is the covariance |
| C85 | quicksort of object lists (Fortran) | permutation in order, no access outside |
| C86 | deleting, thinning, removing duplicates (Fortran) | lists by position |
| C87 | confidence limits of samples (Fortran) | interpolation of order statistics, counts on both sides |
| C88 | checkpoint files (Fortran) | round trip, truncated files refused |
| C89 | crashes while a checkpoint is written | disk states after each operation; refuted for the gap between delete and rename |
| C90 | end of burn-in | invariant over all points added; exact condition |
| C91 | covariance of all chains | decomposition of the total covariance, semidefinite |
| C92 | decision to stop | first check meeting the conditions; refuted: successive checks, chains deciding alike after restarts |
| C93 | messages between chains (MPI) | inductive invariant of a transition system for any number of chains |
| C94 | updates go on | a continuation from every reachable state; refuted if only some chains restart |
| C95 - C97 | cached likelihoods and theory, memory of points (Fortran) | invariant over all moves, heap with addresses |
| C98 | new weights in importance sampling (Fortran) | the file written, row by row; totals follow the new posterior |
| C99 | thinning in importance sampling | every k-th step; refuted at the start and at the end of .data files |
| C100 | common offset of the weights | one offset for all chains; refuted: waiting, impossible points without MPI |
| C101 | rows dropped and kept | the rows written; refuted: fractions of .data files, rows with NaN |
| C102 | .data files of points | round trip by names; refuted for derived parameters |
| C103 | likelihoods added to stored ones | equal to computing all; refuted for unknown names |
| C104 | two lists of parameter names put together | union, base parameters first, old numbers kept; refuted when no name is new |
| C105 | .paramnames files between Fortran and Python | round trips for names that list-directed input can read |
| C106 | columns of a chain and their names | each column holds the value of its name; refuted for likelihood files in other orders |
| C107 | reading parameter numbers from names | words give their positions; refuted for numbers out of range and surplus words |
| C108 | proposal covariance by name | entries by name, widths for missing ones, definiteness kept; overflow and transposition found |
| C109 | ranges and start points | start points within ranges for all random numbers; endless loop for a negative width at the limit |
| C110 | redshifts of power spectra | the grid rises from zero, holds all exact redshifts and reaches the largest one asked for; findings on steps, near redshifts and order of likelihoods |
| C111 | theory predictions in files | files give back what was written, for one or many theories and for other settings; finding: cross spectra come back exponentiated |
| C112 | H0 from theta | the cached parameters are those without cache, H0 gives the theta asked for when theta has bounded slopes, the search ends, prior limits; finding: the search ends where two values of theta are near each other |
| C113 | parameterizations agree | densities add up and theta/astro/background points of one cosmology have the same densities; findings: fewer than 3.046 degenerate neutrinos differ, background leaves fields unset |
| C114 | derived parameters are what their names say | number, order and values of derived parameters for all settings; finding: a short temperature spectrum is read behind its end |
| C115 | initial power spectrum | amplitude, slopes, running, stops; finding: the tensor tilt is stored as tensor amplitude, the tilt never set |
| C116 | which C_l are computed | each likelihood gets what it asks for and no more is computed, independent of order; stops; finding: integer overflow without CMB |
| C117 | C_l from CAMB | values, units, tensors, lensing potential, deflection angle; findings: the normalization of the continuation is kept from the first point, the potential-temperature correlation is one number, B modes of the template without lensing |
| C118 | BAO from tables of probability | bilinear interpolation, continuity, range, reading and normalization, fiducial ratios, table of MGS; findings: first point reads index 0, last cells are excluded, MGS is a step function |
| C119 | BAO from measurements | meaning of each type of measurement, quadratic form, errors, ruler, data files; findings: errors and types used unset, short list of redshifts |
| C120 | supernovae with free magnitude | Gaussian likelihood integrated over one or two magnitudes, independence of units and shifts, grid over alpha and beta; finding: two magnitudes with all supernovae in the first set or in the second |
| C121 | data of supernovae | covariance of corrected magnitudes, variance with dispersion and peculiar velocity, absolute distances, three formats of lines; findings: covariances of two quantities must be symmetric, number of the data set, files without third variable are read wrong |
| C122 | maps and spectra of bandpower likelihoods | numbering of used maps, pairs by name, columns of files, order of matrices; findings: letter x in map names, rows missing in files, duplicate check is dead |
| C123 | windows and covariance of bandpowers | binned theory, used columns of the covariance, scale and largest multipoles; findings: windows of maps that are not required, covmat_scale is kept between data sets, T and E with lensing are not requested |
| C124 | theory for maps | spectra of fields, aberration, calibration, foregrounds of smica; findings: two multipoles, derived parameter without l = 2000 |
| C125 | approximations of the bandpower likelihood | transform of Hamimeche and Lewis and exact likelihood as functions of the relative eigenvalues, equality for the full sky, zero just at the data, noise, prior |
| C126 | measurements of weak lensing | used measurements in order with their rows of the covariance, selection by angle, data vector, likelihood zero just at the data; findings: duplicate measurements, unchecked bins, limits of single precision, ah_factor is never used, theory file indexed by type |
| C127 | theory of weak lensing | parameters, distributions, kernels, Limber approximation, equality of Weyl and matter spectra in general relativity, transforms and ranges of multipoles; findings: xim without xip has zero theory, repeated multipole for acc above 4 |
| C128 | likelihood of galaxy power spectra (mpk) | amplitude and Q marginalized, degenerate cases stop, scaling of distances, rows and parts of files; finding: a row that cannot be read is used as measurement 0 |
| C129 | likelihood of WiggleZ | least chi squared of all regions, flat prior on Q, regions of the files, redshift bins; findings: norm is kept between values of Q and is of single precision, 50 rows are skipped for unused regions, matrix files that end early are accepted |
| C130 | Python and Fortran read bandpower data alike | names, numbers of spectra, columns, windows, covariances; findings: view of the maps that are required, words of map_fields, single rows and columns, last window, unbinned covariance |
| C131 | Python and Fortran give the same chi squared | transform, exact and Gaussian likelihood with any decompositions, theory of maps, aberration, calibration; findings: noise added to theory of Gaussian data, exact likelihood of bins, prior without a parameter, arrays of one multipole |
| C132 | theory spectra from files (CMBlikes.py) | columns in either order, multipoles from 0, files added; finding: rows that are there twice take the place of others |
| C133 | Density of one parameter | width and kernel; defined, between 0 and 1, largest value 1, positive exactly where samples are within the kernel; flat for uniform samples up to the limits; no bias for linear, quadratic and cubic functions; unit of the weights; mirror image |
| C134 | Density of two parameters | kernel is the inverse of the covariance; defined, between 0 and 1, largest value 1, positive exactly where samples are within the kernel; flat for uniform samples; bias for planes; exchange and mirror image of parameters; partial: kernels of one bin, unit of the weights |
| C135 | Correlation lengths and effective samples | autocorrelation, length, number of effective samples, units, several chains, largest length; partial: default distance, slow chains |
| C136 | Gelman-Rubin | largest ratio of variance of means to mean variance among all combinations; None exactly for a degenerate combination; zero for equal means; invariant under linear maps; single parameters |
| C137 | Raftery and Lewis | counts of transitions, statistics as gains of the largest likelihood, least number of steps to equilibrium, what a report means for all parameters and limits, termination; partial: independent chains fail |
| C138 | Likelihood statistics | best fit, averages and their order, complexity, invariance under shifts and units of weight, regions of N dimensions and limits, when they exist; partial: regions hold too little, and may be empty |
| C139 | Principal components | correlations, values of components, exponents, variances, conditional variances, names, default logarithms; partial: default for negative values, unknown names, error with fixed parameters |
| C140 | Foregrounds of B modes | bands, factors of dust and synchrotron radiation, errors of band centres, loss of correlation, added spectra and that they are covariances; partial: ends of bands, correlation together with its loss |
| C141 | Hubble constant and abundances | normal likelihoods, conversion of helium fractions, columns and tables; partial: table of errors, normalization |
| C142 | Binned Planck likelihood | selection of bins, data, highest multipoles, likelihood, leaving bins out, template for WMAP; partial: ranges without bins, WMAP without template |
| C143 | Effective numbers of samples for densities | bounds by weights and rows, units, sum of correlations, bandwidth and its fallback; partial: few rows, distance 3, unit of weights without a largest distance |
| C144 | Split tests and correlation steps | split differences of quantiles, correlations at distances; partial: parts without rows, chain not longer than the distances |
| C145 | Gelman-Rubin test, densities and kernels in Fortran | worst combination, spline value, confidence limits, kernels with edges; partial: limits at the end of the range, window of one point |
| C146 | Mixtures of normal distributions | weights, conditional and marginal mixtures, ranges, drawing; partial: total covariance, conditional weights, getLower, density1D with limits, drawing none |
| C147 | Automatic bandwidths | plug-in width of one parameter, widths and kernel of two parameters, shear; partial: equal samples, reflection with limits on both parameters, setting of effective samples |
| C148 | Supernovae in Python | same value as the Fortran likelihood, cache of the inverse, grid, marginalization, reading; partial: close points, failed inversion, missing inverse, lines with '#', empty lines, name |
| C149 | Simulated data sets | noise of the given sensitivity and beam, names of the columns, settings, what the likelihood reads back; partial: fields T and E always, lensing alone, arrays, zero noise |
| C150 | Tagged settings and conflicts | which keys give the tags and the settings of a tag, when it stops, a key is for one tag; a run goes on just if no two likelihoods exclude each other; partial: tags with a blank at the end |
| C151 | plik in Python | binned spectra of the maps, products of matrices, least chi^2 of the coadded spectra, their inverse covariance, factors of the covariance; partial: rows of the covariance if a spectrum is in no data |
| C152 | smoothing in Python | means with weights that do not depend on the data, bounds, Gaussian weights, covariances stay symmetric and positive; partial: windows of even length and short data |
| C153 | Union 2.1 supernovae | half chi^2 of distance moduli, zero and signs, effect of H0, file of the covariance; partial: marginalization over H0 and the default file |
| C154 | priors of linear combinations | weights of the named parameters, reading of means and widths, stops, product of the Gaussians; partial: combinations of fixed parameters |

## What is modelled

| model file | source |
|------------|--------|
| `PyStr`, `PyBase`, `PyNum` | text methods, insertion-ordered dictionaries, exceptions, `str(n)` |
| `IniModel` | getdist/inifile.py (all but the python 2 branches and the type-hint getters) |
| `ParamModel` | getdist/paramnames.py |
| `BoundsModel` | getdist/parampriors.py |
| `CovModel` | getdist/covmat.py (no file input and output, no plotting) |
| `ThinModel`, `ChainModel`, `ConfModel`, `StatModel`, `FixedModel` | getdist/chains.py: thinning, row bookkeeping, confidence limits, means and covariances, reweighting, fixed parameters |
| `DensModel`, `ConvModel` | getdist/densities.py (no splines), getdist/convolve.py (no DCT smoothing, no SciPy fallback) |
| `FmtModel`, `TableModel`, `MargeModel` | getdist/types.py: number formatting, tables, marginalised limits; `_setMargeLimits` of mcsamples.py |
| `BestModel` | BestFit of types.py, renameParam.py, `doCopy` of copyGridFiles.py, best-fit writer of source/calclike.f90 and source/GeneralTypes.f90 |
| `McmcModel` | source/MCMC.f90: acceptance, Metropolis, fast and dragging steps, MoveDone, SampleFrom (without slow/fast timing and CheckParamChange; random numbers and proposals are arguments; parameters and likelihoods are reals); source/SampleCollector.f90 82-112: AddNewWeightedPoint |
| `BlockModel` | source/BaseParameters.f90 279-434: types of the parameters, breaks and blocks; source/propose.f90: cyclic permutations, choice of index and block, mapping matrices and change of the parameters. Random permutations, rotations and radial steps are arguments; Matrix_Cholesky is an argument with its defining property as hypothesis; numbers are reals. Not modelled: the radial distribution (Propose_r), the distribution of the rotations, timing |
| `SortModel` | source/ObjectLists.f90: Swap, QuickSort/QuickSortArr, Sort, DeleteItem, DeleteRange, Thin, RemoveDuplicates, CompareReal; source/samples.f90 70-111: ConfidVal. A list is its Count valid items with bounds-checked access; pointers, memory and secondary objects are not modelled; numbers are reals |
| `CollectModel` | source/SampleCollector.f90: SaveState, ReadState, WriteCheckpoint, ReadCheckpoint, AddNewPoint up to the end of burn-in, UpdateCovAndCheckConverge (means, covariances, decisions); ObjectLists.f90: SaveBinary, ReadBinary; LoadState/SaveState of MCMC.f90 and propose.f90; new_chains in driver.F90, DoSampling in GeneralSetup.f90. A binary file is the list of the typed items written to it; the bytes and the stream classes are not modelled. GelmanRubinEvalues and CheckLimitsConverge give their results as inputs; the messages between chains, the condition that all chains have enough samples and thinning above 500000 samples are not modelled here |
| `MpiModel` | source/SampleCollector.f90: the messages, receives and collective operations of AddNewPoint and UpdateCovAndCheckConverge as a transition system; the rules of MPI are in the header of the file. Numbers of samples are left out (conditions on them may become true at any time), the two ALLGATHERs are one, stopping is not modelled |
| `LikeModel` | source/calclike.f90: AddLike, bounds, Gaussian priors, GetLogLike, GetLogLikeMain, GetLogLikePost, LogLikeWithTheorySet; source/CalcLike_Cosmology.f90: CalculateRequiredTheoryChanges, GetTheoryForLike; SetCurrentPoint and the allocation in GetNewTransferData of Calculator_CAMB.f90; points and Clear of GeneralTypes.f90; the moves of MCMC.f90 and minimize.f90 as far as they evaluate, copy and clear points. The shared Info is a heap with explicit addresses. CAMB, likelihood functions and priors on derived parameters are arguments; arithmetic is exact; timing and printed output are left out |
| `ImpModel` | source/ImportanceSampling.f90 105-411 and the outcomes of reading a row or record. Prior cuts, theory and new likelihood are functions of the point; the exchange between chains is a function of all their values. Not modelled: input parameters, text output of theory, printed statistics |
| `PsetModel` | source/ParamSet.f90: WriteModel, ReadModel; source/calclike.f90: GetLogLikePost, source/ImportanceSampling.f90 247-263, 313-317. A file is the list of the items in it; the theory is a value of an arbitrary type |
| `NamesModel` | source/ObjectParamNames.f90 50-91, 111-143, 177-220, 254-267, 299-420. Which characters end an item of list-directed input is a parameter; quotes, null values and repeat counts are not modelled |
| `ColModel` | source/GeneralTypes.f90 254-274, 618-737, 752-796: numbering of parameters of likelihoods, output likelihoods, rows of a chain. Real numbers are exact; labels and ranges are left out |
| `SetupModel` | source/BaseParameters.f90 85-160, 220-255, source/IO.f90 27-80: ranges and start points of parameters, reading of the proposal matrix. Real numbers are exact, Gaussian numbers are taken from a list, and a file is its comment line and rows of numbers |
| `RedModel` | source/CosmologyTypes.f90 308-435: redshifts at which power spectra are computed and their numbers for likelihoods. Redshifts are exact reals; the lists use `SortModel` |
| `TheoModel` | source/CosmoTheory.f90 58-79, 105-134, 150-200, 239-423: theory predictions written to and read from files, extension of power spectra, arrays of C_l. A file is the list of things written; splines and interpolation are arguments |
| `CosModel` | source/CosmologyParameterizations.f90 89-186, 271-499, source/GeneralTypes.f90 155-162: the theta, astro and background parameterizations, the bisection for H0 and its cache. Real numbers; theta(H0), the redshift of reionization and the BBN fit are arguments |
| `DerModel` | source/CosmologyParameterizations.f90 188-269, 345-414, 476-499, paramnames/*.paramnames, source/Calculator_CAMB.f90 866-904: derived parameters by name, the initial power spectrum. Real numbers; the BBN fits and the numbers of CAMB are arguments |
| `HistModel` | getdist/mcsamples.py: ranges, histograms, fractions, combined samples, thinned output |
| `CobayaModel` | getdist/cobaya_interface.py |
| `JobModel` | paramgrid/jobqueue.py, deleteJobs.py |
| `BatchModel`, `GridModel`, `RunModel` | paramgrid/batchjob.py, gridconfig.py, batchjob_args.py, getdist/chain_grid.py, runbatch.py |
| `ClModel` | source/CosmologyTypes.f90 250-306, source/Calculator_CAMB.f90 368-463: table of the largest multipoles, C_l from CAMB. Real numbers and integers without bounds; the arrays of CAMB and the template are arguments |
| `BaoModel` | source/bao.f90 115-432, Hofz_Hunit, Matrix_utils_new.f90 2033-2047, 2134-2174: all likelihoods of baryon acoustic oscillations and reading of their data. Real numbers (constants of single precision exact); reads outside arrays and of unset variables are results; distances are arguments; text is already split into numbers and names |
| `SnModel` | source/supernovae_JLA.f90 221-302, 371-491, 551-594, 773-991, 1028-1228: likelihood of supernovae and reading of light curves. Real numbers; division by 0, log of numbers <= 0 and reads outside arrays are results; inversion and distances are arguments; lines of the file are words that are numbers or not |
| `MapModel` | source/CMBlikes.f90 134-420, 483-604, 662-669, 753-860, 918-966, 982-996, 1227, 1242-1268: names of maps and spectra, columns, files, windows and covariance. Real numbers; reads outside arrays are results. Ini%Read leaves a variable unchanged if the key is missing (forutils is not in the repository) |
| `HlModel` | source/CMBlikes.f90 651-660, 711-725, 862-915, 968-980, 998-1138, 1177-1239, 1307-1349 and source/Matrix_utils_new.f90 421-440, 604-634: theory for maps and likelihood. Real numbers; diagonalization and Cholesky factors (LAPACK) are arguments with their specification as hypothesis |
| `WlModel` | source/wl.f90 149-163, 212-302, 306-347, 359-464, 466-728: reading, selection, likelihood and theory of correlations. Real numbers; splines, Bessel functions, distances and spectra are arguments; elements never set are None. Reading of words and threads are not modelled |
| `MpkModel` | source/mpk.f90 46-56, 117-244, 247-409, source/wigglez.f90 99-106, 297-471, 473-649: reading and likelihood. Real numbers but for the rounding of normV in wigglez.f90; power spectrum, distances and inverse of the covariance are arguments; 2 by 2 Matrix_Inverse is exact. Printing, conflicts of data sets and blank lines are not modelled |
| `PyClModel` | python/CMBlikes.py 79-114, 117-203, 205-320, 322-575, 578-719: files of maps, spectra, windows, covariance; theory, transform, chi squared. Decompositions, inverse and determinant are arguments; numpy slices and broadcasting of one row, column or element are modelled. Plots, printing, reading of ini files and camb results are not |
| `KdeModel` | python/getdist/mcsamples.py 109-115, 1450-1548 and densities.py 79-86: kernel density estimate of one parameter after binning. Numbers are real; convolutions are those of `ConvModel`; division by zero is an error. The choice of the bandwidth, mean likelihoods and logging are not |
| `Kde2Model` | python/getdist/mcsamples.py 1568-1586, 1711-1798 and densities.py 79-86: kernel density estimate of two parameters after binning. Numbers are real; convolutions are those of `ConvModel` without the cache; division by zero is an error. The choice of the bandwidth, mean likelihoods, contours and logging are not |
| `CnvgModel` | python/getdist/chains.py 423-475, 1396-1436 and mcsamples.py 861-903: autocorrelation, correlation length, effective samples, correlation of several chains, Gelman-Rubin and the number for single parameters. Numbers are real; means, covariances and autocorrelation sums are those of `StatModel` and `ConvModel`; eigh and eigvalsh of numpy are arguments; the square root of the number for single parameters, printing, and rounding errors are not modelled |
| `RaftModel` | python/getdist/mcsamples.py 956-1080: convergence test of Raftery and Lewis for one chain. Numbers are real, weights are natural numbers, confidence limits are arguments; thinning is that of `ThinModel`; errors that are caught, and names that keep their value from earlier turns and chains, are modelled; the burn-in of chains that fail, printing and rounding errors are not |
| `LstModel` | python/getdist/mcsamples.py 2002-2037, chains.py 381: likelihood statistics of weighted samples. Numbers are real; the result of argsort is an argument (any order of ascending values); text output of the statistics and rounding errors are not modelled |
| `PcaModel` | python/getdist/mcsamples.py 616-810: principal component analysis. Numbers are real; np.linalg.eig, inv and argsort are arguments; text around the numbers, labels, correlations with other parameters and files are not modelled |
| `BkModel` | source/CMB_BK_Planck.f90 9-12, 72-342: foregrounds of the BICEP, Keck and Planck likelihood. Numbers are real; values that are not finite are None; reading of files and settings is not modelled |
| `AbModel` | source/HST.f90 8-59, source/bbn.f90 11-52, source/ElementAbundances.f90 51-116. Numbers are real; tables are a function of file, column and model; interpolation is not modelled |
| `PlModel` | source/CMB.f90 27-46, 114-146, 172-190, 193-320: native binned Planck likelihood and template for WMAP. Contents of files and the inverse of a matrix are arguments |
| `NeffModel` | getdist chains.py 477-625 (effective numbers of samples of one and two parameters) and mcsamples.py 1140-1195 (bandwidth of one parameter). Numbers are real; the bandwidth from bins is a function |
| `StepModel` | getdist mcsamples.py 924-951 (split tests, squares of the numbers) and 1093-1128 (correlations at distances in steps). int(5*(indep_thin/30)) is on exact numbers |
| `SdModel` | source/samples.f90 40-66 (GelmanRubinEvalues; the root and the eigenvalues are functions), 113-265 (interpolation, limits, kernels). Real numbers; indices from 1; the loop of the limits has fuel. spline (second derivatives) is a function of the density |
| `MixModel` | getdist gaussian_mixtures.py 12-323 (MixtureND) and 325-400 (Mixture2D). Real numbers; np.linalg.inv and det are functions; drawing is a function of the round; indices are not negative; `values` has one number for each fixed parameter. That a marginal density is an integral is not modelled |
| `BwModel` | getdist kde_bandwidth.py 47-286 and mcsamples.py 1195-1306 (getAutoBandwidth2D). Real numbers; transforms, fsolve, brentq, minimize and Cholesky are functions; a power of a number that is not positive is an error |
| `SnpModel` | python/planck/SN.py 71-184, 192-295. Real numbers; inversion is a function that may fail; lines are split into words and numbers are read by a function; dataset files and files of covariance are not modelled |
| `FcModel` | python/makePerfectForecastDataset.py 13-110. Real numbers with the division of Python 3; numbers are not rounded to the digits of %E; directories, copies of files and the text of the settings are not modelled |
| `TagModel` | source/settings.f90 224-287, source/likelihood.f90 68-94, source/GeneralTypes.f90 522-531, 739-750. Keys are once in the settings; filling in of directories is a function argument; messages are not modelled |
| `PlkModel` | python/planck/CMB_plik.py 84-87, 101-112, 157-203, 231-236, 238-276, 282-289. Real numbers; slices are inside the arrays; clik, nuisance components, calibration and the matrix Jt are arguments; solvers may fail |
| `SmoModel` | python/planck/smoothing.py 9-22. Real numbers; scipy.signal.gaussian and np.convolve by their definitions; square covariances |
| `UniModel` | source/supernovae_Union2.f90 80-152. Real numbers; distances are an argument; the number of supernovae is any; reading of the numbers in the files is not modelled |
| `LcModel` | source/BaseParameters.f90 170-203, source/calclike.f90 111-134. Real numbers; a setting is its list of numbers; parameters of combinations are indices |

Not modelled: IEEE rounding (numbers are exact rationals, reals, decimal expansions or elements of an abstract type
with printing and parsing functions), numpy, scipy and fftpack internals (their documented results are used),
matplotlib and plots.py, kernel bandwidth selection, gaussian_mixtures.py, the command line parsers, python 2
differences except where a theorem says so, concurrency of file systems, and the parts of the Fortran code not listed.

## Findings

Properties that the code does not satisfy keep their statement; the refuted part is a theorem named `..._refuted` with a
concrete or general counterexample, and the note in MANIFEST.json says what holds instead. Status `partial` is used for them.

## Trusted base

* The Coq 8.16.1 kernel.
* The reading of the source into the model: every definition cites the lines it mirrors, simplifications are stated beside it.
* The assumptions that `Print Assumptions` lists (the command follows every property theorem). Only axioms of Coq's
  standard library occur, through its real numbers:

<!-- assumptions -->
* Closed under the global context (no assumptions), 438 theorems: every theorem of the manifest not listed below.
* `ClassicalDedekindReals.sig_forall_dec`: `C102_likes`, `C102_params_partial`, `C102_stops`, `C106_shift_refuted`, `C108_names_partial`, `C108_plain`, `C108_transpose_refuted`, `C111_array`, `C111_at_l`, `C119_columns`, `C122_file_partial`, `C122_matrix`, `C122_rows_refuted`, `C122_short`, `C123_columns`, `C123_cov_bins`, `C123_cov_multipoles`, `C123_read`, `C123_scale_first`, `C123_scale_partial`, `C123_scale_refuted`, `C123_vector`, `C123_window_refuted`, `C124_fields`, `C124_same`, `C124_symmetric`, `C126_file_refuted`, `C128_last_row`, `C128_parts_partial`, `C128_rows_partial`, `C128_rows_refuted`, `C129_matrices_partial`, `C129_matrices_refuted`, `C129_matrices_wrong`, `C129_measurements_partial`, `C129_measurements_refuted`, `C130_binned_partial`, `C130_covariance_partial`, `C130_file_partial`, `C130_one_column_refuted`, `C130_one_multipole_refuted`, `C130_reach`, `C130_row_refuted`, `C130_windows_partial`, `C131_short`, `C131_short_refuted`, `C131_theory_partial`, `C132_add_partial`, `C132_load_partial`, `C132_missing`, `C132_rows_refuted`, `C140_center`, `C142_data`, `C142_template`, `C142_wmap_refuted`, `C148_blank_refuted`, `C148_comment_refuted`, `C148_length`, `C148_name_refuted`, `C148_read`, `C149_read`, `C151_shape_refuted`, `C154_read`, `C154_stop`, `C154_weights`, `C15_merged_refuted`.
* `ClassicalDedekindReals.sig_forall_dec`, `FunctionalExtensionality.functional_extensionality_dep`: `C102_derived_refuted`, `C103_add`, `C103_name_partial`, `C103_stored`, `C103_value`, `C106_columns_partial`, `C106_temperature_refuted`, `C108_definite_partial`, `C108_matrix`, `C108_no_file`, `C109_no_end_refuted`, `C109_ranges`, `C109_start`, `C110_close_refuted`, `C110_index`, `C111_redshifts_refuted`, `C115_scalar`, `C115_slope_refuted`, `C115_tensor_partial`, `C117_B_refuted`, `C117_joined_partial`, `C117_kept_refuted`, `C117_value`, `C118_alpha`, `C118_between`, `C118_mgs_alpha`, `C118_mgs_outside`, `C118_mgs_partial`, `C118_mgs_refuted`, `C118_peak`, `C118_read`, `C118_short`, `C119_file`, `C119_fixed`, `C119_low`, `C119_matrix`, `C119_short_refuted`, `C119_unset_refuted`, `C120_points`, `C120_sets_partial`, `C120_used`, `C121_cov_partial`, `C121_cov_refuted`, `C121_missing`, `C121_variance`, `C123_binned`, `C123_correction`, `C123_window_partial`, `C124_aberration_partial`, `C124_calibration`, `C124_identity`, `C124_lensing`, `C124_order`, `C124_straight_partial`, `C124_two_refuted`, `C125_fiducial`, `C125_noise`, `C126_bins_refuted`, `C126_count`, `C126_data_partial`, `C126_factor_refuted`, `C126_first`, `C126_load`, `C126_pairs`, `C126_rounded_refuted`, `C126_size`, `C126_theta`, `C126_twice_refuted`, `C126_unselected`, `C126_used`, `C126_vector`, `C127_behind`, `C127_bias`, `C127_redshifts`, `C127_shift`, `C127_steps`, `C128_fiducial`, `C128_scaling`, `C128_step`, `C129_gigglez`, `C129_zbin`, `C129_zbin_stops`, `C130_correction_refuted`, `C130_last_refuted`, `C130_required_refuted`, `C131_adapt`, `C131_noise_partial`, `C131_noise_refuted`, `C133_smooth`, `C133_width`, `C134_inverse`, `C134_narrow_width`, `C134_singular`, `C136_mean_var`, `C139_default`, `C141_error_table`, `C141_helium`, `C141_hubble_settings`, `C141_measurements`, `C141_table_refuted`, `C142_empty_refuted`, `C142_marginal`, `C142_release`, `C142_selected`, `C142_wmap`, `C144_steps`, `C144_steps_defined`, `C144_steps_refuted`, `C145_limits`, `C145_limits_defined`, `C145_limits_refuted`, `C145_prob`, `C145_prob_points`, `C145_prob_range`, `C146_compose`, `C146_sim`, `C146_sim_none_refuted`, `C146_total_1d_refuted`, `C146_total_refuted`, `C146_weights`, `C147_bins`, `C147_bins_free`, `C147_bins_refuted`, `C147_setting_refuted`, `C147_shear`, `C147_t_star`, `C148_sets`, `C149_fields`, `C149_fields_refuted`, `C151_coadd`, `C151_cov`, `C151_least`, `C151_products`, `C151_rows_refuted`, `C151_unused`, `C154_fixed_refuted`, `C21_diagonal`, `C21_entries`, `C21_mean_shift`, `C21_positive_semidefinite`, `C21_symmetric`, `C21_weight_scale`, `C78_drag_count_refuted`, `C78_steps`, `C78_weights`, `C79_best_partial`, `C79_best_refuted`, `C80_file`, `C85_reals`, `C87_counts`, `C87_interval`, `C87_order`, `C87_quantile`, `C91_below`, `C91_covariance`, `C91_mean`, `C91_total`, `C92_agree`, `C92_consecutive_refuted`, `C92_restart_refuted`, `C92_singular_refuted`, `C92_stop_partial`, `C92_two`, `C95_bounds`, `C95_continued`, `C95_current`, `C95_minimizer`, `C95_values`, `C95_written`, `C96_first_refuted`, `C96_minimizer_partial`, `C96_no_leak_partial`, `C96_refine_refuted`, `C96_sampler_partial`, `C97_impossible`, `C97_redone`.
* `ClassicalDedekindReals.sig_forall_dec`, `ClassicalDedekindReals.sig_not_dec`, `FunctionalExtensionality.functional_extensionality_dep`: `C100_common_partial`, `C100_waits_refuted`, `C101_nan_refuted`, `C101_part_partial`, `C101_part_refuted`, `C101_rows`, `C117_cross_refuted`, `C117_deflection`, `C117_history`, `C117_phi`, `C117_saved_refuted`, `C119_best`, `C119_dilation`, `C119_errors`, `C119_meaning`, `C119_ruler`, `C119_stop`, `C119_value`, `C127_multipoles_refuted`, `C127_transform`, `C133_density`, `C133_empty`, `C133_flat`, `C133_kernel`, `C133_mirror`, `C133_normed`, `C133_order`, `C133_plain`, `C133_scale`, `C134_density_partial`, `C134_empty_partial`, `C134_flat`, `C134_flat_partial`, `C134_inside`, `C134_kernel`, `C134_mirror`, `C134_narrow_refuted`, `C134_normed_partial`, `C134_order`, `C134_plain`, `C134_scale_partial`, `C134_scale_refuted`, `C134_transpose`, `C135_affine`, `C135_autocorrelation`, `C135_constant`, `C135_default_refuted`, `C135_effective`, `C135_length`, `C135_longest`, `C135_one_move_refuted`, `C135_pooled`, `C135_pooled_one`, `C135_slow_refuted`, `C135_unit`, `C135_weights`, `C136_linear`, `C136_one`, `C136_single`, `C136_worst`, `C136_zero`, `C140_band`, `C140_ends_refuted`, `C141_gaussian`, `C141_hubble`, `C141_norm_refuted`, `C141_ratios`, `C142_loglike`, `C143_bounds`, `C143_bounds2`, `C143_defined`, `C143_direct`, `C143_equal`, `C143_few_refuted`, `C143_half_refuted`, `C143_rows_refuted`, `C143_units`, `C145_boundary_point_refuted`, `C145_worst`, `C146_density_refuted`, `C146_ranges`, `C147_amise`, `C147_amise0`, `C147_choose`, `C147_choose_nan`, `C147_derotate`, `C151_order`, `C151_rq`, `C151_rq_symmetric`, `C152_bounds`, `C152_centre`, `C152_cov`, `C152_cov_positive`, `C152_cov_symmetric`, `C152_mean`, `C152_shift_refuted`, `C152_short_cov_refuted`, `C152_short_refuted`, `C154_density`, `C15_correlation_entries`, `C15_cov_to_corr`, `C15_symmetric`, `C15_unit_diagonal`, `C23_compose`, `C23_cool_compose`, `C23_cool_formula`, `C23_cool_one`, `C23_formula`, `C41_commutes`, `C41_convolve1D`, `C41_fft`, `C41_longer_second_refuted`, `C41_polynomials`, `C41_too_large`, `C64_cache_errors`, `C64_cache_transparent`, `C64_reused_id_refuted`, `C65_convolve2D`, `C65_delta`, `C66_autoConvolve`, `C66_autoCorrelation`, `C66_largest_at_zero`, `C66_too_long`, `C67_kernel`, `C67_narrow_refuted`, `C67_total`, `C67_trunc`, `C84_covariance`, `C84_fast_only`, `C95_priors`, `C98_like_only`, `C98_nochange`, `C98_target`, `C98_weights`, `C99_every_partial`, `C99_restart_partial`, `C99_start_refuted`.
* `ClassicalDedekindReals.sig_forall_dec`, `Classical_Prop.classic`, `FunctionalExtensionality.functional_extensionality_dep`: `C126_like`.
* `ClassicalDedekindReals.sig_forall_dec`, `ClassicalDedekindReals.sig_not_dec`, `Classical_Prop.classic`, `FunctionalExtensionality.functional_extensionality_dep`: `C100_single_refuted`, `C110_fine_partial`, `C110_fine_refuted`, `C110_grid`, `C110_order_refuted`, `C111_extension`, `C111_islog_refuted`, `C111_power_partial`, `C111_sequence`, `C111_settings`, `C112_cache`, `C112_ends`, `C112_level_refuted`, `C112_prior`, `C112_theta`, `C113_agree_partial`, `C113_astro`, `C113_background`, `C113_backgrounds_agree`, `C113_fewer_refuted`, `C113_kept_refuted`, `C113_theta`, `C114_astro`, `C114_background`, `C114_count`, `C114_inputs`, `C114_short_refuted`, `C114_theta`, `C118_first_refuted`, `C118_interpolated_partial`, `C118_last_refuted`, `C118_nonneg`, `C118_outside`, `C120_failed`, `C120_marge`, `C120_one`, `C120_sets_refuted`, `C120_shift`, `C120_shift_two`, `C120_two`, `C120_unit`, `C121_dataset_refuted`, `C121_distance`, `C121_known`, `C121_pre`, `C124_derived`, `C124_derived_refuted`, `C124_pivot`, `C124_power`, `C124_smica`, `C125_binned`, `C125_exact`, `C125_exact_best`, `C125_full_sky`, `C125_g`, `C125_gaussian`, `C125_hl_best`, `C125_no_prior`, `C125_prior`, `C125_single`, `C125_trace`, `C125_transform`, `C125_zero`, `C127_alignment`, `C127_constant`, `C127_corr`, `C127_kernel`, `C127_limber`, `C127_multipoles_partial`, `C127_pivot`, `C127_ranges`, `C127_symmetric`, `C127_weyl`, `C127_xim_partial`, `C127_xim_refuted`, `C128_amplitude`, `C128_errors`, `C128_factor`, `C128_fixed`, `C128_flat`, `C128_flat_degenerate`, `C128_missing`, `C128_normal`, `C128_normal_between`, `C128_stops`, `C128_uses`, `C128_value`, `C129_factor`, `C129_flat`, `C129_mpk`, `C129_normal_partial`, `C129_normal_refuted`, `C129_profile_partial`, `C129_single_partial`, `C129_single_refuted`, `C131_binned_refuted`, `C131_chisq_partial`, `C131_exact`, `C131_loglike`, `C131_parameter_refuted`, `C131_transform`, `C133_free`, `C133_unbiased`, `C134_unbiased_partial`, `C137_burn`, `C137_burn_defined`, `C137_ends`, `C137_gain_indep`, `C137_gain_markov`, `C137_gain_positive`, `C137_independent_refuted`, `C137_report`, `C138_best`, `C138_complexity`, `C138_content_refuted`, `C138_defined`, `C138_error_refuted`, `C138_limits`, `C138_means`, `C138_order`, `C138_region`, `C138_scale`, `C138_shift`, `C139_components`, `C139_conditional`, `C139_conditional_refuted`, `C139_correlations`, `C139_default_refuted`, `C139_missing_refuted`, `C139_names`, `C139_terms`, `C139_tightest`, `C139_unit`, `C140_added`, `C140_correlation`, `C140_decorrelation`, `C140_pivot`, `C140_positive`, `C140_positive_refuted`, `C140_scaling`, `C140_single`, `C140_units`, `C143_bandwidth`, `C143_raises`, `C145_boundary`, `C145_window`, `C146_conditional`, `C146_conditional_corr_refuted`, `C146_conditional_one`, `C146_conditional_weights_refuted`, `C146_marged`, `C146_pdf2`, `C147_binned`, `C147_diag`, `C147_direct`, `C147_failed`, `C147_fixed_2D`, `C147_fixed_2D_time`, `C147_fixed_point`, `C147_fixed_point_flat`, `C147_func2d`, `C147_func2d_time`, `C147_get_hdiag`, `C147_high`, `C147_isj`, `C147_order`, `C147_reflect_refuted`, `C147_sheared`, `C148_cache`, `C148_cache_refuted`, `C148_cov`, `C148_failed_refuted`, `C148_mag_only`, `C148_marge`, `C148_new`, `C148_precompute`, `C148_same`, `C148_unset_refuted`, `C148_variance`, `C149_array_refuted`, `C149_beam`, `C149_beam_exists`, `C149_both`, `C149_header`, `C149_key`, `C149_lensing_only_refuted`, `C149_noise`, `C149_variance`, `C149_zero_refuted`, `C149_zero_variance`, `C152_asymmetric_refuted`, `C153_free`, `C153_like`, `C153_marginalized_refuted`, `C153_nonneg`, `C153_scale`, `C153_zero`, `C23_weights_do_not_grow`, `C76_detailed_balance`, `C76_probability`, `C76_stationary`, `C76_step`, `C77_lands`, `C77_path_balance`, `C99_stop_refuted`.
<!-- end -->

`coqchk` on all files also lists the remaining axioms of loaded library files, which no theorem uses: the opaque module
fields of `Coq.Reals.Rdefinitions` (`RbaseSymbolsImpl`: R, R0, R1, Rplus, Rmult, Ropp, Rlt, Rabst, Rrepr, Rquot1, Rquot2 and the `_def`
equations; `RinvImpl`: Rinv, Rinv_def), which are sealed definitions, and those of `Coq.ssr.ssrunder` (`Under_rel`).
No axioms, parameters or functors are declared in this development.

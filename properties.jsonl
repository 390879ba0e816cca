{"id": "C01", "title": "Ini save/load round trip", "statement": "Saving an IniFile whose keys and string values are representable on one line (no line breaks, no leading/trailing blanks, no '=' in a key, a key not starting with '#', 'INCLUDE(' or 'DEFAULT(', no '$(' in a value when expansion is on) and reading the saved file back gives exactly the same key->value dictionary, with every key written exactly once; boolean values written by saveFile are read back by .bool() as the same boolean.", "quantifier": "every dictionary of representable keys/values, every read order list (including stale or missing keys)", "why_tests_cant": "the set of parameter dictionaries and orders is infinite and the failure (a lost or doubled key) depends on the combination of order list and dictionary", "anchors": ["python/getdist/inifile.py:fileLines", "python/getdist/inifile.py:saveFile", "python/getdist/inifile.py:readFile", "python/getdist/inifile.py:bool"]}
{"id": "C02", "title": "INCLUDE/DEFAULT precedence", "statement": "After a successful load with includes expanded, each key has the value of the first definition in document-traversal order (the file itself, then its INCLUDE files depth first in order, then its DEFAULT files depth first in order): a DEFAULT file never changes a value that the file or its includes set, and no definition present in a visited file is dropped if no earlier one exists.", "quantifier": "every finite tree of ini files, any nesting of INCLUDE and DEFAULT, every key", "why_tests_cant": "the property ranges over all file trees of any depth; tests only cover a few fixed nestings", "anchors": ["python/getdist/inifile.py:readFile"]}
{"id": "C03", "title": "Duplicate keys are never silently accepted", "statement": "A load fails with IniError exactly when some key is defined a second time by a line that is in force without DEFAULT protection (the main file or an INCLUDE chain not under a DEFAULT); otherwise it succeeds. In particular a successful load implies no two unprotected definitions of the same key.", "quantifier": "every finite tree of ini files", "why_tests_cant": "needs every possible place for the second definition (same file, sibling include, nested include)", "anchors": ["python/getdist/inifile.py:readFile"]}
{"id": "C04", "title": "Environment placeholder expansion", "statement": "For any text made of literal characters, doubled dollars and $(VAR) references with at least one reference, the stored value is the text with each $(VAR) replaced by the variable's value (or nothing if unset), each $$ replaced by one $, and every other character kept in order; text without '$(' is stored unchanged, byte for byte; expanded values are not re-expanded.", "quantifier": "every value string, every environment", "why_tests_cant": "the scanner re-slices its input and restarts its index; correctness is about all positions of all tokens", "anchors": ["python/getdist/inifile.py:expand_placeholders"]}
{"id": "C05", "title": "Typed getters honour defaults and never invent values", "statement": "For a key that is absent (or empty, unless empties are allowed) every typed getter returns the supplied default, or raises IniError if there is none; for a key that is set the result depends only on its stored text, never on the default; a boolean getter returns True only for text starting with T, False only for text starting with F and raises otherwise.", "quantifier": "every dictionary, key, default and allowEmpty flag", "why_tests_cant": "combination of set/empty/absent with default present/absent over all texts", "anchors": ["python/getdist/inifile.py:asType", "python/getdist/inifile.py:bool", "python/getdist/inifile.py:isSet", "python/getdist/inifile.py:string"]}
{"id": "C06", "title": "Comments belong to the key they precede", "statement": "After reading a file, the comments recorded for a key are exactly the '#' lines directly preceding its defining line (no other non-comment line in between).", "quantifier": "every sequence of lines in the main and DEFAULT files", "why_tests_cant": "leak happens only through the skip path for already-defined keys in DEFAULT files", "anchors": ["python/getdist/inifile.py:readFile"]}
{"id": "C07", "title": "Parameter-names file round trip", "statement": "Writing a list of parameter infos to .paramnames text and reading it back preserves, for every parameter and in order, its name, derived flag, label and comment (for single-line labels/comments without the separator characters).", "quantifier": "every list of representable parameters", "why_tests_cant": "label/comment/derived-star parsing interacts over all label contents", "anchors": ["python/getdist/paramnames.py:ParamInfo.setFromString", "python/getdist/paramnames.py:ParamInfo.string", "python/getdist/paramnames.py:ParamList.loadFromFile", "python/getdist/paramnames.py:ParamList.saveAsText"]}
{"id": "C08", "title": "Merged renames are the connected components", "statement": "Merging several rename dictionaries yields groups in which two names are in the same group exactly when they are linked by a chain of given (name, alternatives) entries; groups are pairwise disjoint and no name is lost or invented.", "quantifier": "every finite collection of rename dictionaries, any order and overlap", "why_tests_cant": "transitive merging over arbitrary overlap graphs cannot be enumerated", "anchors": ["python/getdist/paramnames.py:mergeRenames"]}
{"id": "C09", "title": "Name lookup is consistent and first-match", "statement": "numberOfName returns the position of the first parameter with that name and -1 exactly if there is none; parWithName without renames returns that same parameter; hasParam agrees; a lookup that must succeed raises on a missing name.", "quantifier": "every parameter list and every name", "why_tests_cant": "ranges over all lists including duplicates and renames", "anchors": ["python/getdist/paramnames.py:ParamList.numberOfName", "python/getdist/paramnames.py:ParamList.parWithName", "python/getdist/paramnames.py:ParamList.hasParam"]}
{"id": "C10", "title": "Selecting and deleting parameters keeps order and pairing", "statement": "deleteIndices removes exactly the parameters at the given positions (whatever order the positions are given in) and keeps the rest in order; filteredCopy keeps exactly the parameters also in the other list in this list's order; number of derived plus non-derived parameters is always the total.", "quantifier": "every list, every set of indices in any order", "why_tests_cant": "deleting while shifting positions fails only for particular index orders", "anchors": ["python/getdist/paramnames.py:ParamList.deleteIndices", "python/getdist/paramnames.py:ParamList.filteredCopy", "python/getdist/paramnames.py:ParamList.numDerived", "python/getdist/paramnames.py:ParamList.numNonDerived"]}
{"id": "C11", "title": "Parameter bounds file round trip", "statement": "Saving ParamBounds to a .ranges file and loading it gives back the same lower and upper bound (or absence of one) for every named parameter.", "quantifier": "every list of names and every assignment of optional bounds", "why_tests_cant": "all combinations of one-sided/two-sided/no bounds over arbitrary names", "anchors": ["python/getdist/parampriors.py:ParamBounds.__str__", "python/getdist/parampriors.py:ParamBounds.loadFromFile", "python/getdist/parampriors.py:ParamBounds.setRange"]}
{"id": "C12", "title": "Setting a range replaces the previous range", "statement": "After setRange(name, (lo, hi)) the reported lower/upper bounds of name are exactly lo and hi (None or 'N' meaning no bound), whatever was set before, and no other parameter's bounds change; fixedValue(name) is v exactly when both bounds are v.", "quantifier": "every history of setRange calls", "why_tests_cant": "depends on the history of earlier calls", "anchors": ["python/getdist/parampriors.py:ParamBounds.setRange", "python/getdist/parampriors.py:ParamBounds.fixedValue", "python/getdist/parampriors.py:ParamBounds.fixedValueDict"]}
{"id": "C13", "title": "Rescaling a covariance parameter", "statement": "rescaleParameter(name, s) multiplies the variance of name by s^2, its covariance with every other parameter by s, leaves all other entries unchanged and keeps the matrix symmetric; rescaling by s then by 1/s restores the matrix.", "quantifier": "every matrix size, entry values, parameter position and scale", "why_tests_cant": "row and column are scaled separately; the diagonal is touched twice", "anchors": ["python/getdist/covmat.py:CovMat.rescaleParameter"]}
{"id": "C14", "title": "Merging covariance matrices", "statement": "mergeCovmatWhereNew keeps every entry of the first matrix, takes every other entry whose two parameters are both in the second matrix from the second, sets the remaining entries to zero, and lists the first matrix's parameters followed by the new ones once each; the result is symmetric if both inputs are.", "quantifier": "every pair of covariance matrices with any parameter overlap and order", "why_tests_cant": "index translation between three orderings over all overlaps", "anchors": ["python/getdist/covmat.py:CovMat.mergeCovmatWhereNew"]}
{"id": "C15", "title": "Correlation matrix normalisation", "statement": "correlation() of a covariance matrix divides entry (i,j) by the product of the two standard deviations, so it has unit diagonal and stays symmetric; merged matrices obey the same law.", "quantifier": "every covariance matrix with positive diagonal", "why_tests_cant": "loop bound depends on a separately stored size", "anchors": ["python/getdist/covmat.py:CovMat.correlation"]}
{"id": "C16", "title": "Thinning to unit weight samples", "statement": "thin_indices(factor) returns row numbers in non-decreasing order, within range; when some weight exceeds the factor the number of returned rows is total weight // factor and row i is returned exactly floor(cumulative weight through i / factor) - floor(cumulative weight before i / factor) times, so each unit of the thinned chain represents factor units of the original.", "quantifier": "every list of non-negative integer weights and every positive factor", "why_tests_cant": "the loop carries a running total and multiplicity over arbitrary length chains", "anchors": ["python/getdist/chains.py:WeightedSamples.thin_indices", "python/getdist/chains.py:WeightedSamples.thin_indices_single_samples"]}
{"id": "C17", "title": "Weighted thinning keeps total weight", "statement": "thin_indices_and_weights returns increasing distinct rows with positive weights, and the total weight equals the original total divided into whole units of factor as documented (integral case), never assigning weight to a zero-weight row.", "quantifier": "every list of integer weights and factor", "why_tests_cant": "as C16", "anchors": ["python/getdist/chains.py:WeightedSamples.thin_indices_and_weights"]}
{"id": "C18", "title": "Combining and re-splitting chains", "statement": "makeSingle concatenates the chains' samples, weights and likelihoods in order, and getSeparateChains afterwards returns the same chains in the same order (up to removal of rows below the minimum weight ratio).", "quantifier": "any number of chains of any lengths", "why_tests_cant": "offset bookkeeping across arbitrarily many chains", "anchors": ["python/getdist/chains.py:Chains.makeSingle", "python/getdist/chains.py:Chains.getSeparateChains"]}
{"id": "C19", "title": "Chain offsets stay consistent under row operations", "statement": "After makeSingle, any sequence of filtering, thinning and burn removal leaves offsets that partition the remaining rows, so getSeparateChains returns for each original chain exactly its surviving rows.", "quantifier": "every sequence of operations on combined samples", "why_tests_cant": "history property: stale offsets only show for particular operation sequences", "anchors": ["python/getdist/chains.py:Chains.filter", "python/getdist/chains.py:WeightedSamples.thin", "python/getdist/chains.py:WeightedSamples.removeBurn", "python/getdist/chains.py:Chains.getSeparateChains"]}
{"id": "C20", "title": "Weights, likelihoods and samples stay aligned", "statement": "Every row operation (filter, thin, burn removal, minimum weight ratio, reweighting) keeps the three row arrays the same length and keeps each surviving row's sample together with its own likelihood and weight; cached means/variances are invalidated.", "quantifier": "every sequence of row operations on every sample set", "why_tests_cant": "history property over independent arrays", "anchors": ["python/getdist/chains.py:WeightedSamples.filter", "python/getdist/chains.py:WeightedSamples.setMinWeightRatio", "python/getdist/chains.py:WeightedSamples.removeBurn", "python/getdist/chains.py:WeightedSamples._weightsChanged"]}
{"id": "C21", "title": "Sample covariance is symmetric and positive semidefinite", "statement": "The covariance matrix computed from weighted samples is symmetric, its diagonal entries equal the variances, and for non-negative weights of positive total every quadratic form with it is non-negative; means/variances are unchanged by multiplying all weights by a positive constant.", "quantifier": "every number of samples and parameters, all values and weights", "why_tests_cant": "universally quantified algebraic law", "anchors": ["python/getdist/chains.py:WeightedSamples.cov", "python/getdist/chains.py:WeightedSamples.var", "python/getdist/chains.py:WeightedSamples.mean"]}
{"id": "C22", "title": "Confidence limits bracket the requested tail mass", "statement": "confidence(param, f, upper=False) returns a sample value x such that the weight strictly below x is at most f*norm and weight at or below x at least f*norm; the upper version satisfies the mirrored statement; limits are monotone in f.", "quantifier": "every sample vector, weights, tail fraction in range", "why_tests_cant": "search over sorted cumulative sums: off-by-one depends on ties and sizes", "anchors": ["python/getdist/chains.py:WeightedSamples.confidence", "python/getdist/chains.py:WeightedSamples.initParamConfidenceData"]}
{"id": "C23", "title": "Reweighting composes", "statement": "Reweighting by adding log-likelihoods a then b gives the same relative weights and likelihoods as adding a+b once; cooling by s then t is cooling by s*t; the relative weights are as in the documented formula.", "quantifier": "every weights, likelihoods and increments", "why_tests_cant": "normalisation by maxima inside each step must cancel for all inputs", "anchors": ["python/getdist/chains.py:WeightedSamples.reweightAddingLogLikes", "python/getdist/chains.py:WeightedSamples.cool"]}
{"id": "C24", "title": "Separate-chain fixed parameter deletion", "statement": "deleteFixedParams removes exactly the parameters that have the same value in every row of every chain, whether the chains are stored combined or separately.", "quantifier": "any set of chains", "why_tests_cant": "differs between storage modes only for particular data", "anchors": ["python/getdist/chains.py:Chains.deleteFixedParams", "python/getdist/chains.py:WeightedSamples.deleteFixedParams"]}
{"id": "C25", "title": "Job index stays consistent", "statement": "After any sequence of job submissions and deletions, the three views of the job index (by id, by job name, by chain root) agree: each listed job is found by its id, its name and each of its roots, and deleting an id removes exactly its own entries.", "quantifier": "every sequence of addJob/delId operations", "why_tests_cant": "history property; fails only when names or roots are re-used", "anchors": ["python/paramgrid/jobqueue.py:jobIndex.addJob", "python/paramgrid/jobqueue.py:jobIndex.delId"]}
{"id": "C26", "title": "Saving the job index is crash safe", "statement": "If the process stops at any point while saving the job index, a later load returns either the old or the new complete index.", "quantifier": "every crash point, every old and new content", "why_tests_cant": "crash points cannot be hit systematically by unit tests", "anchors": ["python/paramgrid/jobqueue.py:saveJobIndex", "python/paramgrid/jobqueue.py:loadJobIndex"]}
{"id": "C27", "title": "Job resource arithmetic", "statement": "For accepted settings the submitted script requests nodes*chainsPerNode*... consistently: number of MPI slots times runs equals chains*runs, total tasks fits requested nodes*processors-per-node times threads, and settings that cannot be split evenly are rejected with an error.", "quantifier": "every combination of nodes, chains, cores and runs per job", "why_tests_cant": "integer divisions: only some combinations are inexact", "anchors": ["python/paramgrid/jobqueue.py:jobSettings", "python/paramgrid/jobqueue.py:submitJob"]}
{"id": "C28", "title": "Setting resolution priority", "statement": "Job settings are resolved in the documented order: explicit argument, value in the template script, environment variable, built-in default; a source is used only if every higher source is absent.", "quantifier": "every combination of present/absent sources", "why_tests_cant": "2^k combinations times value types, including falsy values such as 0", "anchors": ["python/paramgrid/jobqueue.py:getDefaulted", "python/paramgrid/jobqueue.py:extractValue"]}
{"id": "C29", "title": "Data tags are order independent", "statement": "The normalised data tag / normalised job name is the same for any permutation of the same data set names, and normalising is idempotent; distinct multisets of (underscore-free) data names give distinct tags.", "quantifier": "all lists of data names and all permutations", "why_tests_cant": "permutation-invariance over all lists", "anchors": ["python/paramgrid/batchjob.py:dataSet.makeNormedDatatag", "python/paramgrid/batchjob.py:jobItem.makeNormedName", "python/paramgrid/batchjob.py:batchJob.normalizeDataTag"]}
{"id": "C30", "title": "No redundant importance jobs", "statement": "After building a grid, no importance-sampling job has the same normalised name as a full chain run or as another importance job of the kept list, and every non-redundant requested job is kept exactly once, in order.", "quantifier": "every list of job groups and importance settings", "why_tests_cant": "de-duplication over all orders of jobs", "anchors": ["python/paramgrid/batchjob.py:batchJob.makeItems"]}
{"id": "C31", "title": "Resolving a root name finds the job", "statement": "resolveName/normed_name_item returns an item whose normalised name equals the normalised query, for every data tag order in the query, and fails (None / error) only if no such item exists.", "quantifier": "every grid and every query", "why_tests_cant": "lookup over all items incl. importance items, all permutations", "anchors": ["python/paramgrid/batchjob.py:batchJob.normed_name_item", "python/paramgrid/batchjob.py:batchJob.resolveName", "python/paramgrid/batchjob.py:batchJob.resolveRoot"]}
{"id": "C32", "title": "Convergence and update predicates", "statement": "chainFinished, wantCheckpointContinue, getDistNeedsUpdate and hasConvergeBetterThan answer as documented for every state of the files (existence, times, contents), in particular a job is never reported finished while its converge statistic is below the requested threshold criterion.", "quantifier": "every file-system state seen by the predicate", "why_tests_cant": "all combinations of presence/age/content of chain, checkpoint and stat files", "anchors": ["python/paramgrid/batchjob.py:jobItem.chainFinished", "python/paramgrid/batchjob.py:jobItem.wantCheckpointContinue", "python/paramgrid/batchjob.py:jobItem.getDistNeedsUpdate", "python/paramgrid/batchjob.py:jobItem.hasConvergeBetterThan"]}
{"id": "C33", "title": "Chain file names agree with chain files on disk", "statement": "The names returned by chainNames(num_chains) are the files that the sampler writes for chains 1..num_chains.", "quantifier": "every number of chains", "why_tests_cant": "all n", "anchors": ["python/paramgrid/batchjob.py:jobItem.chainNames"]}
{"id": "C34", "title": "Batch submission covers every selected run once", "statement": "runbatch submits every selected ini file exactly once, in selection order, in groups no larger than runsPerJob, with only the last group smaller.", "quantifier": "every selected list and every runsPerJob >= 1", "why_tests_cant": "buffer flush at the end: depends on list length modulo group size", "anchors": ["python/runbatch.py:submitJob"]}
{"id": "C35", "title": "Grid ini option precedence", "statement": "When several sources set the same option for a grid run (parameter extra options, job extra options, settings extra options, data-set parameters), the value in the generated ini is that of the highest-priority source, and options set by only one source survive.", "quantifier": "every combination of option sources", "why_tests_cant": "all overlaps of dictionaries", "anchors": ["python/paramgrid/gridconfig.py:makeGrid", "python/paramgrid/gridconfig.py:updateIniParams"]}
{"id": "C36", "title": "Job filters", "statement": "Filtering a grid by the command-line options returns exactly the jobs satisfying all given options, in grid order, without duplicates; adding an option never adds jobs.", "quantifier": "every grid and every combination of options", "why_tests_cant": "conjunction of a dozen predicates over all grids", "anchors": ["python/paramgrid/batchjob_args.py:batchArgs.filterChosen"]}
{"id": "C37", "title": "Chain names in a directory tree are distinct", "statement": "After disambiguation, chains with the same file root found in different directories get pairwise distinct names, so every chain remains addressable.", "quantifier": "every set of directories and roots", "why_tests_cant": "collisions appear only for particular path overlaps", "anchors": ["python/getdist/chain_grid.py:ChainDirGrid._make_unique"]}
{"id": "C38", "title": "Contour levels enclose the requested probability", "statement": "getContourLevels returns for each requested contour a level such that the cells strictly above the level contain no more than the requested mass and the cells at or above it contain at least it (up to the interpolation between the adjacent cells); levels are ordered opposite to the masses.", "quantifier": "every density array and list of contours", "why_tests_cant": "sorted cumulative search with interpolation over arbitrary arrays", "anchors": ["python/getdist/densities.py:getContourLevels"]}
{"id": "C39", "title": "Density integration and normalisation", "statement": "Density1D.integrate is the trapezoidal sum; after normalize('integral') the integral is one and after normalize('max') the maximum is one, the shape (ratios) being unchanged; the 2D integral applies half weights on edges and quarter weights at corners.", "quantifier": "every grid of at least two points per axis; any values with non-zero integral (integral), some positive value (maximum)", "why_tests_cant": "algebraic identity over all sizes", "anchors": ["python/getdist/densities.py:Density1D.integrate", "python/getdist/densities.py:Density2D.integrate", "python/getdist/densities.py:GridDensity.normalize"]}
{"id": "C40", "title": "FFT padding size", "statement": "nearestFFTnumber(x) returns the smallest tabulated size that is at least x and fails (rather than returning a too small size) beyond the table.", "quantifier": "every requested size", "why_tests_cant": "off-by-one at each of the table's entries", "anchors": ["python/getdist/convolve.py:nearestFFTnumber"]}
{"id": "C41", "title": "FFT convolution slices equal direct convolution", "statement": "convolve1D in modes full/same/valid returns the corresponding slice of the exact linear convolution, with lengths n+m-1, n, and n-m+1; circular convolution padded to at least n+m-1 equals linear convolution.", "quantifier": "all lengths and values", "why_tests_cant": "wrap-around depends on pad size relation for all lengths", "anchors": ["python/getdist/convolve.py:convolve1D", "python/getdist/convolve.py:convolveFFT", "python/getdist/convolve.py:_centered"]}
{"id": "C42", "title": "Number formatting to significant figures", "statement": "numberFigs rounds to the requested number of significant figures: the printed value differs from the input by at most half a unit of the last printed place and has the requested number of significant digits; trailing zeros are kept.", "quantifier": "every number and number of figures", "why_tests_cant": "string surgery over all digit strings", "anchors": ["python/getdist/types.py:NumberFormatter.formatNumber", "python/getdist/types.py:numberFigs"]}
{"id": "C43", "title": "Result tables list every parameter once", "statement": "A result table with any number of columns contains every parameter exactly once, filled column by column in order, with only the last column shorter.", "quantifier": "every parameter count and number of columns", "why_tests_cant": "ceil-division layout for all counts", "anchors": ["python/getdist/types.py:ResultTable.__init__", "python/getdist/types.py:ResultTable"]}
{"id": "C44", "title": "Marginalised limit tags round trip", "statement": "Writing a parameter limit to .margestats and reading it back yields the same limit type (two-tail, upper, lower, none) and the same bounds; the limit reported as upper/lower in tables corresponds to the tail flags.", "quantifier": "every limit", "why_tests_cant": "mapping between flags and text tags in both directions", "anchors": ["python/getdist/types.py:ParamLimit", "python/getdist/types.py:MargeStats.loadFromFile"]}
{"id": "C45", "title": "Cobaya parameter classification", "statement": "Every valid parameter entry is exactly one of fixed, sampled, or derived, after expansion of short forms; expansion is idempotent and preserves the class.", "quantifier": "every parameter info value", "why_tests_cant": "all shapes of the polymorphic info value", "anchors": ["python/getdist/cobaya_interface.py:expand_info_param", "python/getdist/cobaya_interface.py:is_sampled_param", "python/getdist/cobaya_interface.py:is_derived_param", "python/getdist/cobaya_interface.py:is_fixed_param"]}
{"id": "C46", "title": "Reading cobaya info does not change it", "statement": "Getting ranges or parameter lists from a cobaya info dictionary leaves the dictionary unchanged and repeated calls give the same answer.", "quantifier": "every info dictionary and call sequence", "why_tests_cant": "aliasing / in-place pop shows only on second use", "anchors": ["python/getdist/cobaya_interface.py:get_range", "python/getdist/cobaya_interface.py:get_info_params"]}
{"id": "C47", "title": "Histogram binning keeps every sample", "statement": "Every sample falls into a bin index in [0, num_fine_bins), and binned weights sum to the total weight; the 2D histogram places sample (ix,iy) in cell (iy,ix) and loses no weight.", "quantifier": "every sample vector and parameter range", "why_tests_cant": "boundary samples and rounding over all values", "anchors": ["python/getdist/mcsamples.py:MCSamples._binSamples", "python/getdist/mcsamples.py:MCSamples._make2Dhist"]}
{"id": "C48", "title": "Splitting into equal weight fractions", "statement": "getFractionIndices returns n+1 non-decreasing row boundaries from 0 to the number of rows, each segment ending at the first row where the cumulative weight reaches i/n of the total.", "quantifier": "every weight vector and n", "why_tests_cant": "cumulative search over all weights", "anchors": ["python/getdist/mcsamples.py:MCSamples.getFractionIndices"]}
{"id": "C49", "title": "Combined sample sets have the requested mass ratio", "statement": "getCombinedSamplesWithSamples gives the two inputs total weights in the ratio of sample_weights, keeps the relative weights inside each input, and keeps exactly the common parameters, each column being the concatenation of the two inputs' columns.", "quantifier": "every pair of sample sets", "why_tests_cant": "algebraic law over all weights", "anchors": ["python/getdist/mcsamples.py:MCSamples.getCombinedSamplesWithSamples"]}
{"id": "C50", "title": "Thinned data file contains the thinned rows", "statement": "writeThinData(fname, ix) writes, for each requested row number, that row's likelihood and that row's parameter values.", "quantifier": "every index list", "why_tests_cant": "wrong only if the index list is not 0,1,2,...", "anchors": ["python/getdist/mcsamples.py:MCSamples.writeThinData"]}
{"id": "C51", "title": "Renaming parameters in files is simultaneous", "statement": "renaming with a map applies to whole names only and simultaneously: swapping two names swaps them, a name not in the map is unchanged, and renaming back with the inverse map restores the file.", "quantifier": "every injective rename map and every file", "why_tests_cant": "order of application matters only for chains/cycles of names", "anchors": ["python/renameParam.py"]}
{"id": "C52", "title": "deleteJobs deletes only what was asked for", "statement": "The job deletion script deletes exactly the jobs selected by the given id, id range or names option, and all jobs of the batch only if no selection option was given.", "quantifier": "every combination of options", "why_tests_cant": "control-flow over option combinations", "anchors": ["python/deleteJobs.py"]}
{"id": "C53", "title": "Grid file copy row trimming", "statement": "Copying chain files with burn-in removal writes exactly the rows after the removed fraction, never the removed rows.", "quantifier": "every file length and fraction", "why_tests_cant": "edge case when all rows are removed", "anchors": ["python/copyGridFiles.py:doCopy"]}
{"id": "C54", "title": "saveFile() without a name writes back to the loaded file", "statement": "After loading a file, calling saveFile() without a file name writes to that file and to no other (in particular never over an included or default file).", "quantifier": "every tree of ini files", "why_tests_cant": "depends on the nesting of files read, not on one example", "anchors": ["python/getdist/inifile.py:IniFile.readFile", "python/getdist/inifile.py:IniFile.saveFile"]}
{"id": "C55", "title": "Keyword storage of parameter names round trips", "statement": "Parameter infos written to a keyword store (value with '!' for a backslash, comment apart) and read back keep name, derived flag, label and comment, in order, and the stored counts add up to the number of parameters.", "quantifier": "every list of parameters whose labels have no '#' or '!' and whose comment is not NULL", "why_tests_cant": "escaping law for all labels", "anchors": ["python/getdist/paramnames.py:ParamNames.saveKeyWords", "python/getdist/paramnames.py:ParamNames.loadFromKeyWords"]}
{"id": "C56", "title": "Updated renames make aliases resolvable", "statement": "After updateRenames(renames) a parameter lookup by any alias linked to a parameter (through the parameter's known renames and the given dictionary, transitively) finds a parameter linked to that alias, and a lookup by an unlinked name finds nothing; names, labels and derived flags are unchanged.", "quantifier": "every parameter list with distinct names, every renames dictionary", "why_tests_cant": "depends on transitive chains of aliases and on arbitrary set ordering", "anchors": ["python/getdist/paramnames.py:ParamList.updateRenames", "python/getdist/paramnames.py:ParamList.parWithName"]}
{"id": "C57", "title": "Layout of a saved ini file", "statement": "A saved ini file lists the INCLUDE lines, the DEFAULT lines, then one line key=value per parameter: first the parameters that were read, in the order of their first definition, then all others alphabetically; booleans are written T or F.", "quantifier": "every ini object, every tree of files it was read from", "why_tests_cant": "ordering law over arbitrary reading histories, stale and repeated entries", "anchors": ["python/getdist/inifile.py:IniFile.fileLines", "python/getdist/inifile.py:IniFile.readFile"]}
{"id": "C58", "title": "Run selection when submitting a grid", "statement": "runbatch submits exactly the jobs that meet every option given (minimize or chain runs, converged or not, existing or missing chains, name filters); with --not_queued a job whose run is already in the queue is never submitted again.", "quantifier": "every grid, every set of options, every queue state", "why_tests_cant": "interaction of many independent options over arbitrary grids", "anchors": ["python/runbatch.py"]}
{"id": "C59", "title": "Overriding settings of a data set", "statement": "After dataSet.add(name, params, overrideExisting=True) every setting of the new items takes precedence over the data set's existing settings; with overrideExisting=False the existing ones take precedence, for ini files and for dictionaries of parameters alike.", "quantifier": "every list of existing and new items (ini files, dictionaries, nested lists)", "why_tests_cant": "precedence law over arbitrary nestings of two kinds of items with opposite conventions", "anchors": ["python/paramgrid/batchjob.py:dataSet.add", "python/paramgrid/gridconfig.py:updateIniParams"]}
{"id": "C60", "title": "Choice of a proposal matrix", "statement": "The proposal matrix of a job is the first existing file of a fixed list of candidates (own name, normalized name, mapped name, data set's and settings' matrices, then renamed and reduced names); none is set exactly if no candidate exists, and the proposal update is enabled whenever the matrix is only a substitute.", "quantifier": "every set of existing files, every job and every setting of name mappings, renames and removals", "why_tests_cant": "depends on arbitrary subsets of existing files and rename tables", "anchors": ["python/paramgrid/gridconfig.py:makeGrid"]}
{"id": "C61", "title": "Looking up a chain in a directory tree", "statement": "A chain asked for by its unique name is returned; otherwise it is found by its file root up to the order of the words (with '_post' and doubled underscores ignored), and only if exactly one chain qualifies: an ambiguous request raises an error and an unknown one gives nothing, never a different chain.", "quantifier": "every set of chains in directories and every requested name", "why_tests_cant": "depends on name clashes between arbitrary directories", "anchors": ["python/getdist/chain_grid.py:ChainDirGrid.resolve_root", "python/getdist/chain_grid.py:ChainDirGrid.normed_name"]}
{"id": "C62", "title": "Limits of a one dimensional density", "statement": "Density1D.getLimits returns for each requested probability an interval inside the range, lower end not above upper end, that contains every grid point of density above the level used, each end being either the end of the range or a crossing of that level; the level encloses the requested probability, wider intervals belong to larger probabilities, and a list of probabilities gives a list of intervals.", "quantifier": "every interpolated grid, sorted copy and probability", "why_tests_cant": "depends on the search in the sorted grid and its ties and ends for arbitrary densities", "anchors": ["python/getdist/densities.py:Density1D.getLimits", "python/getdist/densities.py:Density1D.initLimitGrids"]}
{"id": "C63", "title": "Integral of an n dimensional density", "statement": "DensityND.integrate sums the density with weight one half for every axis on whose edge a point lies, and agrees with the one and two dimensional integrals.", "quantifier": "every array of any shape with at least two points per axis", "why_tests_cant": "depends on the relation of shape and number of dimensions", "anchors": ["python/getdist/densities.py:DensityND.integrate"]}
{"id": "C64", "title": "Cached transforms do not change convolutions", "statement": "With a cache shared between any sequence of convolveFFT calls, every call returns what it returns without a cache, as long as an id always stands for the same array; an id reused for another array of the same length is the only way to a wrong result.", "quantifier": "every sequence of calls, arrays, modes and cache arguments", "why_tests_cant": "Id reuse depends on the memory allocator and the interleaving of calls; tests use fresh caches.", "anchors": ["python/getdist/convolve.py:convolveFFT"]}
{"id": "C65", "title": "Two-dimensional FFT convolution", "statement": "convolve2D in modes full/same/valid returns the corresponding block of the exact two-dimensional linear convolution, with the shapes n+m-1, n and max(0, n-m+1) along each axis.", "quantifier": "all shapes and values", "why_tests_cant": "Wrap-around and off-by-one slices show only for particular parities of the shapes and sizes of the padded transform.", "anchors": ["python/getdist/convolve.py:convolveFFTn", "python/getdist/convolve.py:_centered"]}
{"id": "C66", "title": "Auto-correlation by transforms", "statement": "autoConvolve returns sum_i x_i x_(i+k) at every lag k below the requested length, divided by the number of terms if normalized; autoCorrelation is 1 at lag 0 for non-constant data; no unnormalized lag exceeds lag 0.", "quantifier": "all data, all lengths up to the number of samples", "why_tests_cant": "The packing of the real transform and the wrap-around of the circular convolution depend on the size; a finite test compares with direct sums at a few sizes.", "anchors": ["python/getdist/convolve.py:autoConvolve", "python/getdist/convolve.py:autoCorrelation"]}
{"id": "C67", "title": "Smoothing by a truncated Gaussian", "statement": "convolveGaussianTrunc returns the exact linear convolution with a positive symmetric kernel of sum one, of the length its mode asks for, and in full mode keeps the total.", "quantifier": "all data, widths and modes", "why_tests_cant": "Slices with negative zero ends are wrong only for widths below a quarter of a pixel.", "anchors": ["python/getdist/convolve.py:convolveGaussianTrunc"]}
{"id": "C68", "title": "Scientific notation of printed numbers", "statement": "When a power of ten is split off, text times power is the number up to half a unit of the last figure, the exponent is that of the leading digit, used only beyond four places, and the number before the power is at least one and below ten.", "quantifier": "all finite numbers, numbers of figures and scalings", "why_tests_cant": "Only mantissas that round up to ten break the normal form, one value in many thousands.", "anchors": ["python/getdist/types.py:numberFigs"]}
{"id": "C69", "title": "Values are printed as precisely as their errors", "statement": "namesigFigs always ends, and prints the value with as many decimals as its errors: not fewer than the upper error and not more than the error with most decimals.", "quantifier": "all finite values, errors and formatter settings", "why_tests_cant": "The two loops adjust the number of figures; a carry such as 9.96 to 10 skips a number of decimals and happens for few values.", "anchors": ["python/getdist/types.py:NumberFormatter.namesigFigs", "python/getdist/types.py:NumberFormatter.decimal_places"]}
{"id": "C70", "title": "Result tables are well-formed tabulars", "statement": "ResultTable writes a rectangular LaTeX tabular: the column specification, the header row and every row of parameters have the same number of cells; it accepts MargeStats and BestFit results, and formats numbers with the formatter it is given.", "quantifier": "all results, formatters, parameter lists and numbers of columns", "why_tests_cant": "The number of cells depends on the number of columns, results and labels and on which parameters are missing from which result.", "anchors": ["python/getdist/types.py:ResultTable.__init__", "python/getdist/types.py:TableFormatter.startTable", "python/getdist/types.py:ResultTable.addFullTableRow", "python/getdist/types.py:ResultTable.paramResultTex"]}
{"id": "C71", "title": "Kinds of marginalised limits", "statement": "Each contour level gives one limit: a two-tail limit is the equal-tail interval if the density at its ends is nearly equal and else the interval of highest density; a one-tail limit ends at the range on one side and leaves 1-level beyond the other. A limit is one-tailed only at an end with a prior bound where the density exceeds max_frac_twotail, and never with force_twotail.", "quantifier": "all densities, settings, ranges and contour levels", "why_tests_cant": "The kind depends on flags computed twice, from settings and from the density, and on the order of the tests.", "anchors": ["python/getdist/mcsamples.py:MCSamples._setMargeLimits"]}
{"id": "C72", "title": "Ranges read from cobaya entries", "statement": "get_range gives (value, value) for a fixed parameter, the limits of the prior for a sampled one and min/max for a derived one, with infinite limits as None, and gives a range for every entry that is_parameter_with_range accepts.", "quantifier": "every entry of a cobaya info", "why_tests_cant": "The forms of an entry and its defaults combine freely; errors show only for rare combinations.", "anchors": ["python/getdist/cobaya_interface.py:get_range", "python/getdist/cobaya_interface.py:is_parameter_with_range"]}
{"id": "C73", "title": "Parameter names from a cobaya info", "statement": "The names are the sampled and then the derived parameters, each in the order of the info after post-processing: removed parameters dropped, additions merged into existing entries or appended, followed by minuslogprior and chi2 with one entry per remaining or added prior and likelihood, all with their labels.", "quantifier": "every info dictionary", "why_tests_cant": "Depends on the interplay of removal, addition and dictionary order.", "anchors": ["python/getdist/cobaya_interface.py:get_info_params", "python/getdist/paramnames.py:ParamNames.loadFromFile"]}
{"id": "C74", "title": "Burn-in recorded in a cobaya info", "statement": "get_burn_removed reports the fraction that post-processing skipped, as recorded in the info, and zero if none is recorded.", "quantifier": "every info dictionary", "why_tests_cant": "Zero is the usual answer, so that a lookup in the wrong dictionary stays unnoticed.", "anchors": ["python/getdist/cobaya_interface.py:get_burn_removed"]}
{"id": "C75", "title": "Best-fit files are read back", "statement": "Reading a .minimum file that CosmoMC wrote gives -log(Like), the varying parameters, then the fixed ones if wanted, then the derived ones, each with its number, value, name and label, and the likelihood parts with kind, tag, name and chi-square; exactly the derived parameters are marked as derived.", "quantifier": "every set of parameters, values, labels and likelihoods", "why_tests_cant": "The file has fixed columns; names and labels of unusual length do not occur in test files.", "anchors": ["python/getdist/types.py:BestFit.loadFromFile", "source/calclike.f90", "source/GeneralTypes.f90:WriteLikelihoodContribs"]}
{"id": "C76", "title": "Metropolis acceptance leaves the target invariant", "statement": "A proposed point is accepted with probability min(1, exp(CurLike-Like)) and never if its likelihood is zero (LogZero), so that exp(-Like) satisfies detailed balance for every symmetric proposal.", "quantifier": "all likelihood values including LogZero, all symmetric proposals on finite sets, every random number", "why_tests_cant": "A wrong acceptance probability changes only the distribution of the chain, which finitely many samples cannot tell.", "anchors": ["source/MCMC.f90:TChainSampler_MetropolisAccept", "source/MCMC.f90:TMetropolisSampler_GetNewMetropolisSample"]}
{"id": "C77", "title": "Fast dragging leaves the target invariant", "statement": "For every slow move and every sequence of fast moves with their decisions, the probability of that path weighted with the target at its start equals the probability of the reversed path weighted with the target at its end; an accepted step ends at the end of the path, with its likelihood.", "quantifier": "all likelihood functions, numbers of interpolation steps, moves and decisions", "why_tests_cant": "The balance rests on the cancellation of all intermediate acceptance probabilities; errors in one interpolation factor give a slightly wrong distribution.", "anchors": ["source/MCMC.f90:TFastDraggingSampler_GetNewSample"]}
{"id": "C78", "title": "Weights count the steps of the chain", "statement": "Whatever the random numbers, the points of the chain with their weights are the sequence of states step by step; the collector receives every point left, once and in order, except the first burn_in+1; a run for n samples makes n*Oversample_fast+1 steps.", "quantifier": "all likelihoods, proposals, random numbers and lengths of run, with and without dragging", "why_tests_cant": "The weight of a point and the step counters are updated in different procedures for accepted, rejected and impossible moves.", "anchors": ["source/MCMC.f90:TChainSampler_MoveDone", "source/MCMC.f90:TChainSampler_SampleFrom", "source/MCMC.f90:TFastDraggingSampler_GetNewSample"]}
{"id": "C79", "title": "MaxLike is the best point of a chain", "statement": "After a run MaxLike is the lowest -log(Like) among the points the chain was at, and MaxLikeParams is such a point.", "quantifier": "all likelihoods, proposals, random numbers and lengths of run", "why_tests_cant": "Only the last point is special, and it is seldom the best one.", "anchors": ["source/MCMC.f90:TChainSampler_MoveDone", "source/minimize.f90"]}
{"id": "C80", "title": "Thinned chain files", "statement": "With a thinning factor t the chain file stands for every t-th step of the chain after the burn-in, the .data file for every (indep_sample*t)-th, fractions being carried over between points; after a restart the first checkpoint_burn points are left out.", "quantifier": "all weights, thinning factors and sequences of points", "why_tests_cant": "Remainders are carried from point to point, so that an error shows only in long sums.", "anchors": ["source/SampleCollector.f90:TMpiChainCollector_AddNewWeightedPoint"]}
{"id": "C81", "title": "Blocks of parameters by speed", "statement": "Each varying parameter is in exactly one block of the proposer; the first two blocks have the slow parameters and the others the fast ones; the numbers of slow and fast parameters used by the proposer are those counted when the blocks are set up, and add up to the number of varying parameters.", "quantifier": "all numbers of parameters, choices of fixed, fast and semi-slow parameters and likelihoods", "why_tests_cant": "The blocks depend on the interplay of several index ranges and options; an index lost or taken twice stops a parameter from moving or breaks the covariance.", "anchors": ["source/BaseParameters.f90:TBaseParameters_InitializeUsedParams", "source/propose.f90:BlockedProposer_Init"]}
{"id": "C82", "title": "Fast parameters of different likelihoods are in different blocks", "statement": "With block_fast_likelihood_params no block of fast parameters has parameters of two likelihoods; the blocks are cut exactly at the breaks found.", "quantifier": "all setups of fast parameters and likelihoods", "why_tests_cant": "A parameter in a wrong block costs only time and is not seen in results.", "anchors": ["source/BaseParameters.f90:TBaseParameters_InitializeUsedParams"]}
{"id": "C83", "title": "Cycle of proposals", "statement": "Whatever the random orders, during each period of num_slow + oversample_fast*num_fast proposals every slow index is used exactly once and every fast index exactly oversample_fast times; the index is turned into the block that has it.", "quantifier": "all numbers of parameters, oversampling factors, numbers of periods and random orders", "why_tests_cant": "Three cyclic permutations of different lengths run with different speed.", "anchors": ["source/propose.f90:BlockedProposer_GetProposal", "source/propose.f90:TCyclicIndexRandomizer_Next"]}
{"id": "C84", "title": "Proposals follow the covariance matrix", "statement": "For any blocks and any rotations in them, unit steps along all directions of all blocks give parameter changes whose outer products add up to the covariance matrix of the proposal; a proposal for a fast index leaves the slow parameters as they are.", "quantifier": "all numbers of parameters, divisions into blocks, positive definite covariance matrices and rotations", "why_tests_cant": "A wrong mapping matrix only makes sampling less efficient.", "anchors": ["source/propose.f90:BlockedProposer_SetCovariance", "source/propose.f90:BlockedProposer_GetBlockProposal", "source/propose.f90:BlockedProposer_UpdateParams"]}
{"id": "C85", "title": "Sorting of object lists", "statement": "Sort and SortArr end, never access an item outside the list, and leave a permutation of the items in order, for any comparison that is a total preorder; QuickSort of a range sorts the range and leaves the rest alone.", "quantifier": "all lists, item types, comparisons and ranges", "why_tests_cant": "The loops have no bounds checks and rely on the pivot as a sentinel; wrong cases need special arrangements of equal items.", "anchors": ["source/ObjectLists.f90:QuickSort", "source/ObjectLists.f90:QuickSortArr", "source/ObjectLists.f90:CompareReal"]}
{"id": "C86", "title": "Deleting, thinning and removing duplicates", "statement": "DeleteRange removes exactly the range; Thin(i) keeps exactly the items 1, 1+i, 1+2i, ... and frees exactly the others, and thinning by i and then j is thinning by i*j; RemoveDuplicates of a sorted list leaves exactly one item of each kind, in increasing order.", "quantifier": "all lists, ranges, factors and comparisons", "why_tests_cant": "Slices and shifted copies are easily off by one at the ends of lists.", "anchors": ["source/ObjectLists.f90:DeleteRange", "source/ObjectLists.f90:Thin", "source/ObjectLists.f90:RemoveDuplicates"]}
{"id": "C87", "title": "Confidence limits of samples", "statement": "The limits for a fraction are the linear interpolations of the ordered samples at (n-1)*limfrac and (n-1)*(1-limfrac), do not depend on the order of the samples, bound the numbers of samples on both sides, and the lower limit is not above the upper one for limfrac up to 1/2; no index is outside the samples.", "quantifier": "all non-empty lists of real samples and fractions between 0 and 1", "why_tests_cant": "Off-by-one errors in order statistics change limits only a little.", "anchors": ["source/samples.f90:TSampleList_ConfidVal"]}
{"id": "C88", "title": "Checkpoint files", "statement": "Reading a checkpoint gives back exactly the state that was written, for any list of samples; a file with any part at its end missing, another kind of file or a later format is refused.", "quantifier": "all states, lists of samples of all item types, sizes and truncation points", "why_tests_cant": "A field written and read in different orders shows up only after restarts.", "anchors": ["source/SampleCollector.f90:TMpiChainCollector_SaveState", "source/SampleCollector.f90:TMpiChainCollector_ReadState", "source/ObjectLists.f90:SaveBinary", "source/ObjectLists.f90:ReadBinary"]}
{"id": "C89", "title": "Checkpoints survive crashes", "statement": "If the program is stopped at any moment while it writes a checkpoint, the next run goes on from the previous checkpoint or from the new one and keeps the chain file.", "quantifier": "all states, disk contents and crash points", "why_tests_cant": "The window between two file operations is too short to be hit by tests.", "anchors": ["source/SampleCollector.f90:TMpiChainCollector_WriteCheckpoint", "source/driver.F90:new_chains", "source/GeneralSetup.f90:TSetup_DoSampling"]}
{"id": "C90", "title": "End of burn-in", "statement": "Burn-in of a chain ends exactly when each parameter has changed at least 52 times between successive stored points from the 51st on; the stored points are every thin-th point in order, of which only the oldest are deleted at the end of burn-in, leaving at least the minimal number for updates.", "quantifier": "all sequences of points, numbers of parameters, thinning factors and minimal numbers", "why_tests_cant": "Counting is across calls and depends on the whole history of the chain.", "anchors": ["source/SampleCollector.f90:TMpiChainCollector_AddNewPoint"]}
{"id": "C91", "title": "Covariance of all chains", "statement": "The pooled mean is the mean of all used samples of all chains; their covariance is the pooled within-chain covariance plus the covariance of the chain means without its factor M/(M-1); the pooled matrix is symmetric and positive semidefinite and not above the total covariance.", "quantifier": "all numbers of chains, samples and parameters", "why_tests_cant": "Weights of chains of different lengths cancel for chains of equal lengths.", "anchors": ["source/SampleCollector.f90:TMpiChainCollector_UpdateCovAndCheckConverge"]}
{"id": "C92", "title": "Decision to stop", "statement": "A run stops at the first check at which R is below the limit for the second time in succession (and the limits agree if they are checked), and all chains stop at the same check.", "quantifier": "all sequences of convergence results, options and flags at the start", "why_tests_cant": "Depends on the sequence of results over a long run and on restarts.", "anchors": ["source/SampleCollector.f90:TMpiChainCollector_UpdateCovAndCheckConverge"]}
{"id": "C93", "title": "Messages between chains", "statement": "With all chains new or all restarted: a chain that has seen the end of burn-in of all others is right; posted receives take only messages about burn-in and probes find only announcements of updates, although all have the same tag; all chains take part in the same updates, at most one apart, and when a chain is in an update every other one has begun it or is about to be told.", "quantifier": "all numbers of chains and all interleavings of their actions and of the arrival of messages", "why_tests_cant": "Interleavings of many processes and message delays are not under the control of tests.", "anchors": ["source/SampleCollector.f90:TMpiChainCollector_AddNewPoint", "source/SampleCollector.f90:TMpiChainCollector_UpdateCovAndCheckConverge"]}
{"id": "C94", "title": "Updates go on", "statement": "Whichever chains start from checkpoints and whatever has happened, the chains can always finish the current or the next update together: no chain waits for ever.", "quantifier": "all numbers of chains, sets of restarted chains, and reachable states", "why_tests_cant": "Deadlocks depend on rare interleavings and on the moment at which an earlier run was stopped.", "anchors": ["source/SampleCollector.f90:TMpiChainCollector_AddNewPoint", "source/driver.F90:new_chains"]}
{"id": "C95", "title": "Reused theory and likelihood values are right", "statement": "Every likelihood the sampler or minimizer gets is the one computed from scratch at the parameters, and each point written has its own likelihood and theory, although likelihoods, power spectra, transfer functions and the background are reused when the parameters they need did not change, after rejected moves, dragging steps and failed calculations.", "quantifier": "all configurations with right dependency masks, all sequences of proposals and decisions (Metropolis, fast and dragging steps) and of minimizer evaluations", "why_tests_cant": "Stale values show up only for particular sequences of accepted, rejected and failed moves of slow, semi-slow and fast parameters.", "anchors": ["source/calclike.f90:TLikeCalculator_GetLogLike", "source/calclike.f90:TTheoryLikeCalculator_GetLogLikeMain", "source/CalcLike_Cosmology.f90:Cosmo_CalculateRequiredTheoryChanges", "source/MCMC.f90:TFastDraggingSampler_GetNewSample", "source/minimize.f90:ffn"]}
{"id": "C96", "title": "Memory of parameter points", "statement": "The intermediate results that parameter points share are never used after they were freed, never freed twice and not lost.", "quantifier": "all configurations and all sequences of moves and minimizer evaluations", "why_tests_cant": "Use of freed memory often goes unnoticed and depends on which moves were accepted.", "anchors": ["source/GeneralTypes.f90:TCalculationAtParamPoint_Clear", "source/Calculator_CAMB.f90:CAMBCalc_GetNewTransferData", "source/MCMC.f90:TFastDraggingSampler_GetNewSample", "source/minimize.f90:TPowellMinimizer_FindBestFit"]}
{"id": "C97", "title": "Likelihoods in importance sampling", "statement": "With stored theory, importance sampling gives the same likelihood as the sampler: selected likelihoods are computed anew with the background set, others keep their stored value; a point impossible for the priors or a selected likelihood gets logZero.", "quantifier": "all configurations, selections of likelihoods, and points with stored theory", "why_tests_cant": "Skipped likelihoods and background calculations combine in many ways.", "anchors": ["source/calclike.f90:TLikeCalculator_GetLogLikePost", "source/CalcLike_Cosmology.f90:Cosmo_GetTheoryForLike"]}
{"id": "C98", "title": "New weights in importance sampling", "statement": "Importance sampling writes, in order, the rows after the burn-in whose points are allowed, with weight times exp(old - new -log(likelihood) + offset) and the new -log(likelihood), leaving out impossible and negligible ones; samples of the old posterior so become samples of the new one. With redo_change_like_only or redo_nochange the weights stay as they are.", "quantifier": "all chains of rows, likelihood functions, cuts and offsets", "why_tests_cant": "The weights of whole chains are only checked by statistics, which hide single wrong rows.", "anchors": ["source/ImportanceSampling.f90:TImportanceSampler_ImportanceSample"]}
{"id": "C99", "title": "Thinning in importance sampling", "statement": "With redo_thin = k the points processed are those of every k-th step of the unweighted chain after burn-in, with their number as weight.", "quantifier": "all chains with integer weights, all k, text and .data files", "why_tests_cant": "Steps lost or counted twice at row borders change few weights.", "anchors": ["source/ImportanceSampling.f90:TImportanceSampler_ImportanceSample"]}
{"id": "C100", "title": "Common offset of the weights", "statement": "With redo_auto_likescale all chains finish with the same offset, which is the given one or, if the mean difference of the best likelihoods found in the first samples is larger than the limit, that difference, and each file is then weighted with it from its beginning.", "quantifier": "all numbers of chains, all lengths and likelihoods", "why_tests_cant": "Needs chains of different lengths and runs with several processes.", "anchors": ["source/ImportanceSampling.f90:TImportanceSampler_ImportanceSample"]}
{"id": "C101", "title": "Rows dropped and kept", "statement": "A number or a fraction of rows is dropped at the beginning of each chain (the fraction times the number of rows, rounded), and every other row is used once with its own values.", "quantifier": "all lengths of chains, fractions and numbers, text and .data files", "why_tests_cant": "Rounding and header sizes matter only for particular lengths.", "anchors": ["source/ImportanceSampling.f90:TImportanceSampler_ImportanceSample", "source/IO.f90:IO_ReadChainRow"]}
{"id": "C102", "title": "Files of parameter points", "statement": "A point read from a .data file has the weight, likelihood and theory that were written, the varied parameters and likelihoods by their names whatever their order, and the central values of all parameters not in the file; likelihoods not in the file are zero and known to be missing; a file whose parameters do not fit stops the program.", "quantifier": "all parametrizations of the writer and the reader, all lists of points", "why_tests_cant": "Orders and selections of parameters of two different runs combine in many ways.", "anchors": ["source/ParamSet.f90:ParamSet_WriteModel", "source/ParamSet.f90:ParamSet_ReadModel"]}
{"id": "C103", "title": "Likelihoods added to stored ones", "statement": "With redo_add or redo_like_name the posterior of a stored point, with only the missing or the named likelihood computed, is the one computed from all likelihoods; a name that does not exist is an error.", "quantifier": "all lists of likelihoods of both runs, all points", "why_tests_cant": "Needs pairs of runs with different sets of likelihoods.", "anchors": ["source/calclike.f90:TLikeCalculator_GetLogLikePost", "source/ImportanceSampling.f90:TImportanceSampler_ImportanceSample"]}
{"id": "C104", "title": "Two lists of parameter names put together", "statement": "Adding a list of parameter names to another gives each name once; a parameter that is a base parameter in either list is a base parameter of the result, base parameters come first, and those of the first list keep their numbers. With the check asked for, the program stops exactly when a name is in both lists.", "quantifier": "for all lists of names", "why_tests_cant": "four passes over two lists with duplicates and kinds; tests cover a few lists", "anchors": ["source/ObjectParamNames.f90:177-220"]}
{"id": "C105", "title": "Files of parameter names between Fortran and Python", "statement": "A .paramnames file written by the Fortran code or by the Python code gives, when the other or the same code reads it, the same names, labels and kinds.", "quantifier": "for all lists of parameters", "why_tests_cant": "names and labels are arbitrary text, and the two parsers differ", "anchors": ["source/ObjectParamNames.f90:50-136", "source/ObjectParamNames.f90:364-420", "python/getdist/paramnames.py"]}
{"id": "C106", "title": "The columns of a chain hold the values of their names", "statement": "Each column of a row of a chain file holds the value of the parameter that is at the same place in the .paramnames file: base parameters, derived parameters of the theory, those of the likelihoods, and the chi-squared of each likelihood, of the prior and of each type of likelihood. Each likelihood is called with the values of its own parameters.", "quantifier": "for all lists of theory parameters, likelihoods and values", "why_tests_cant": "indices are computed in several passes over sorted and unsorted lists", "anchors": ["source/GeneralTypes.f90:254-274", "source/GeneralTypes.f90:618-737", "source/GeneralTypes.f90:752-796"]}
{"id": "C107", "title": "Reading parameter numbers from names", "statement": "A text of parameter names and numbers gives the positions of those parameters in order; names that are not known stop the program or give the value chosen for them, and every number that is returned is that of a parameter.", "quantifier": "for all texts and lists of parameters", "why_tests_cant": "texts are arbitrary", "anchors": ["source/ObjectParamNames.f90:299-362"]}
{"id": "C108", "title": "The covariance matrix of the proposal follows the names", "statement": "The proposal matrix read from a .covmat file has, for each pair of varied parameters, the element of the file at their names, in whatever order the names are there; names not in use are dropped; a parameter that is not in the file has its own width squared on the diagonal and zeros elsewhere. A positive definite file gives a positive definite matrix over the parameters that are varied.", "quantifier": "for all files, parameters, widths and sets of varied parameters", "why_tests_cant": "a wrong permutation or an indefinite matrix shows only for unusual orders of names", "anchors": ["source/BaseParameters.f90:220-255", "source/IO.f90:27-80"]}
{"id": "C109", "title": "Ranges of parameters and start points", "statement": "Every parameter that is accepted has its centre within its range; a parameter with zero width is fixed at its centre; the varied parameters are listed once each in order. Whenever start points are chosen they lie within the ranges, with fixed parameters at their values.", "quantifier": "for all settings and all random numbers", "why_tests_cant": "start points are random", "anchors": ["source/BaseParameters.f90:85-160"]}
{"id": "C110", "title": "Redshifts of power spectra", "statement": "The redshifts at which power spectra are computed rise from zero, are at least two, contain every redshift that a likelihood or an output asks for exactly, reach the largest redshift asked for and have steps no larger than asked for; the number kept by a likelihood for a redshift is that of this redshift. The order of the likelihoods does not matter.", "quantifier": "for all lists of likelihoods, redshifts and outputs", "why_tests_cant": "the grid is merged from all likelihoods; only a few combinations are ever run", "anchors": ["source/CosmologyTypes.f90:308-435"]}
{"id": "C111", "title": "Theory predictions in files", "statement": "Theory predictions that are written to a file, one or many, are the same when they are read: numbers, C_l, power spectra at every wavenumber and redshift, and splines. A program with other settings gets C_l of the lengths it asks for, with the values of the file and zeros behind them.", "quantifier": "for all settings of writer and reader, all theories and all numbers of theories", "why_tests_cant": "depends on the settings of two runs; the file has no names or marks", "anchors": ["source/CosmoTheory.f90:58-79", "source/CosmoTheory.f90:150-200", "source/CosmoTheory.f90:239-423"]}
{"id": "C112", "title": "The Hubble parameter from theta", "statement": "The cosmology for a point of the theta parameterization does not depend on which points were computed before (two cached results). The Hubble parameter found lies in its range and gives the angular scale theta that was asked for, the search always ends, and a point without solution or outside the limits of H0 and of the redshift of reionization is rejected.", "quantifier": "for all sequences of points and all functions theta(H0) (that have bounded slopes, for the accuracy)", "why_tests_cant": "depends on the history of calls and on the shape of theta(H0)", "anchors": ["source/CosmologyParameterizations.f90:89-186", "source/GeneralTypes.f90:155-162"]}
{"id": "C113", "title": "The parameterizations agree", "statement": "In each parameterization the density fractions of baryons, cold dark matter, neutrinos, curvature and dark energy add up to one and are consistent with the physical densities. The same cosmology given in the theta, astro and background parameterizations leads to the same densities, and each sets every field of the cosmology.", "quantifier": "for all parameter points", "why_tests_cant": "three separate routines that are never run on the same cosmology", "anchors": ["source/CosmologyParameterizations.f90:271-414", "source/CosmologyParameterizations.f90:416-499"]}
{"id": "C114", "title": "Derived parameters are what their names say", "statement": "The derived parameters that are written to chains are as many as the names in the .paramnames files that apply for the settings, in their order, and each is the quantity that it is named after; likewise each base parameter is used as the quantity that it is named after.", "quantifier": "for all settings of the run, all cosmologies and theory results", "why_tests_cant": "a shift by one position gives plausible numbers; positions depend on four settings", "anchors": ["source/CosmologyParameterizations.f90:188-269", "source/CosmologyParameterizations.f90:345-360", "source/CosmologyParameterizations.f90:476-499", "paramnames/params_CMB.paramnames", "paramnames/params_astro.paramnames", "paramnames/params_background.paramnames"]}
{"id": "C115", "title": "The initial power spectrum", "statement": "CAMB gets the amplitude, the slopes and the runnings of the scalar and tensor spectra of the parameters. With the inflation consistency relation the tensor slope and running are functions of r and n_s, and a given slope or running is an error; r > 0 without computing tensors is an error.", "quantifier": "for all values of the parameters and settings", "why_tests_cant": "wrong tensor slopes change only a small contribution at large scales", "anchors": ["source/Calculator_CAMB.f90:866-904"]}
{"id": "C116", "title": "Which C_l are computed", "statement": "Every likelihood gets the C_l of the fields it asks for, up to the multipole it asks for and at least up to lmin_computed_cl. Nothing else is computed, the result does not depend on the order of likelihoods, and the program stops just when requests are malformed or missing.", "quantifier": "for all lists of likelihoods and their requests, and all settings", "why_tests_cant": "the combinations of requests of many likelihoods are not tested", "anchors": ["source/CosmologyTypes.f90:250-306", "source/Calculator_CAMB.f90:836-838"]}
{"id": "C117", "title": "C_l from CAMB", "statement": "The C_l of a point are those that CAMB computed for it, lensed if asked for, with tensors up to their limit, in the units of likelihoods. Above the computed multipoles they continue as the template, normalized to join. The lensing potential, its correlation with temperature and the deflection angle have their definitions. Nothing depends on earlier points.", "quantifier": "for all settings, results of CAMB and sequences of points", "why_tests_cant": "wrong values at high multipoles or after many points are small effects", "anchors": ["source/Calculator_CAMB.f90:368-463"]}
{"id": "C118", "title": "BAO likelihoods from tables of probability", "statement": "The likelihood from a table of probability is minus the logarithm of the interpolated probability everywhere in the table, continuous and with the values of the table at its points, excluded outside; the table is normalized to its peak. Coordinates are ratios to the fiducial cosmology. The table of the main galaxy sample is read within its bounds at the interval that holds alpha.", "quantifier": "for all tables with increasing axes and all points", "why_tests_cant": "edges of the tables are hit rarely", "anchors": ["source/bao.f90:315-395", "source/bao.f90:400-429"]}
{"id": "C119", "title": "BAO likelihoods from measurements", "statement": "Each type of measurement is predicted as what it means for the cosmology and the ruler. The likelihood is half of the quadratic form of the differences with the inverse covariance, or with the errors without one; it is 0 just for the theory that equals the data. Data are read as they are in the file, and malformed data stop.", "quantifier": "for all calculators, data sets and covariances", "why_tests_cant": "a wrong factor of (1+z) or c in one type shifts constraints without an error", "anchors": ["source/bao.f90:115-310"]}
{"id": "C120", "title": "Likelihood of supernovae with free absolute magnitude", "statement": "The likelihood is that of a normal distribution of the corrected magnitudes integrated over one free magnitude, or over one for each of two sets: half of the least chi^2 plus half of the logarithm of its determinant. It does not depend on the unit of distance, on a shift of all magnitudes, nor on the estimate that is subtracted. A covariance that cannot be inverted excludes the model. With the grid over alpha and beta the result is the integral over the grid of the likelihoods that are not excluded.", "quantifier": "for all samples, covariances, alpha, beta and distances", "why_tests_cant": "a wrong term in the marginalization shifts all likelihoods by amounts that are not visible in a chain", "anchors": ["source/supernovae_JLA.f90:924-957", "source/supernovae_JLA.f90:1028-1228"]}
{"id": "C121", "title": "Data of the likelihood of supernovae", "statement": "The covariance is that of the magnitudes corrected for stretch and colour. Variances include the intrinsic dispersion of the set of the supernova and its peculiar velocity through the slope of the distance modulus. Absolute distances are used for the supernova they are given for. Each format of lines gives each supernova of the file once, in order; invalid data stop.", "quantifier": "for all files of at most 5000 lines, covariances and redshifts", "why_tests_cant": "formats other than that of the JLA sample are never run", "anchors": ["source/supernovae_JLA.f90:371-491", "source/supernovae_JLA.f90:551-594", "source/supernovae_JLA.f90:806-834", "source/supernovae_JLA.f90:882-921"]}
{"id": "C122", "title": "Maps, pairs of maps and columns of spectra", "statement": "Used maps are those selected by field or name or required, numbered in order. A pair is found by the names of its maps in either order, and the columns of a file are the pairs in the order given or in the order of the lower triangle; matrices and lists of elements convert into each other without loss. Spectra are read for the multipoles of the rows of the file and the others are an error.", "quantifier": "for all lists of maps, names, selections and files", "why_tests_cant": "data sets in the repository use few of the orders", "anchors": ["source/CMBlikes.f90:134-369", "source/CMBlikes.f90:483-604", "source/CMBlikes.f90:918-966"]}
{"id": "C123", "title": "Windows and covariance of bandpowers", "statement": "A bandpower is the sum of the windows times the theory of its pair, plus the linear correction around the fiducial model. The covariance used holds for each pair of bins and used spectra the entry of the file for them, times covmat_scale, 1 if not given. Each spectrum used is requested to the largest multipole needed.", "quantifier": "for all windows, selections, bins and covariance files", "why_tests_cant": "an index that is wrong for a subset of the spectra gives a valid looking likelihood", "anchors": ["source/CMBlikes.f90:371-465", "source/CMBlikes.f90:662-669", "source/CMBlikes.f90:753-860", "source/CMBlikes.f90:982-996", "source/CMBlikes.f90:1242-1268"]}
{"id": "C124", "title": "Theory predictions for maps", "statement": "Each pair of maps is compared to the spectrum of its two fields. Aberration adds coefficient times l dC_l/dl, foregrounds are added to spectra of temperature only, and then T, E and B spectra are divided by the square of the calibration. The derived parameter of smica is the foreground at l = 2000.", "quantifier": "for all spectra, ranges of multipoles, coefficients and parameters", "why_tests_cant": "ends of the range and the order of the steps have small effects", "anchors": ["source/CMBlikes.f90:284-299", "source/CMBlikes.f90:998-1138", "source/CMBlikes.f90:1307-1349"]}
{"id": "C125", "title": "Approximations of the likelihood of bandpowers", "statement": "The transform of Hamimeche and Lewis has the eigenvalues of the data relative to the theory; with the covariance of a full sky its chi-squared is the exact one, (2l+1) fsky sum(x - ln x - 1). Chi-squared is never negative and zero just if theory plus noise is the data for the spectra that are used. Data and theory are compared with the same noise. The exact likelihood is refused for bins. The calibration has a Gaussian prior in its logarithm.", "quantifier": "for all numbers of maps, positive theory and data matrices, bins and noise", "why_tests_cant": "only the value for one model is compared in tests", "anchors": ["source/CMBlikes.f90:651-660", "source/CMBlikes.f90:711-725", "source/CMBlikes.f90:862-915", "source/CMBlikes.f90:968-980", "source/CMBlikes.f90:1177-1239", "source/Matrix_utils_new.f90:421-440", "source/Matrix_utils_new.f90:604-634"]}
{"id": "C126", "title": "Measurements of weak lensing", "statement": "The data vector holds the measurements whose type is used and whose angle is in the range selected for their pair of bins, in the order of the files, and the inverse covariance is that of the rows and columns of these measurements. The size of the covariance must be the number of all measurements. The likelihood is half of the quadratic form of the difference to the theory at the same pairs and angles. The file of the theory has the predictions below the header of their type and pair.", "quantifier": "for all files, selections, types and covariances", "why_tests_cant": "a shift between data and covariance gives a valid looking likelihood", "anchors": ["source/wl.f90:149-163", "source/wl.f90:212-286", "source/wl.f90:306-347", "source/wl.f90:359-376", "source/wl.f90:449-464"]}
{"id": "C127", "title": "Theory of weak lensing and clustering", "statement": "Biases, shear calibration, intrinsic alignment and shifts of redshifts are the parameters of the file of names in its order. Angular power spectra are those of the Limber approximation with the kernels of lensing and galaxies, without power outside of the range of wavenumbers; with the Weyl potential they are the same in general relativity. Correlations of each used type and pair are the sums over all multipoles from 2 to lmax, times the calibration. The multipoles of the spectra increase and cover this range.", "quantifier": "for all distributions, cosmologies, parameters, accuracies and sets of types", "why_tests_cant": "each mistake changes predictions by little", "anchors": ["source/wl.f90:288-302", "source/wl.f90:378-426", "source/wl.f90:466-728", "data/DES/DES.paramnames"]}
{"id": "C128", "title": "Likelihood of galaxy power spectra", "statement": "The likelihood of a galaxy power spectrum is that of the spectrum seen through the windows with its amplitude marginalized over a flat prior; with Q it is marginalized over both the amplitude and its product with Q, or is the mean over 13 values of Q weighted by a normal prior. Independent errors are a diagonal covariance. Wavenumbers and volumes are scaled by the ratio of distances to those of the fiducial model. The measurements, windows and covariance are those of the bands that are used, and a file with rows that cannot be read is not accepted.", "quantifier": "for all data, windows, covariances, spectra, priors and files", "why_tests_cant": "a wrong marginalization changes values smoothly and is seen by no test of finite values", "anchors": ["source/mpk.f90:46-56", "source/mpk.f90:117-244", "source/mpk.f90:247-409"]}
{"id": "C129", "title": "Likelihood of WiggleZ power spectra", "statement": "The likelihood of a redshift bin is half of the least chi squared of all regions that are used, over one amplitude common to the regions; with Q it is marginalized over the amplitude and its product with Q, or is the mean over values of Q of the likelihoods for these values. Measurements, windows and covariances of a region are those of its block of the files, for each choice of regions and number of bands, and files that are too short are not accepted. The redshift is one of the four bins.", "quantifier": "for all regions, data, spectra, priors, roundings and files", "why_tests_cant": "all values of Q give finite likelihoods, and shifted files are read without an error", "anchors": ["source/wigglez.f90:99-106", "source/wigglez.f90:297-437", "source/wigglez.f90:439-471", "source/wigglez.f90:473-649"]}
{"id": "C130", "title": "Python and Fortran read bandpower data alike", "statement": "For the same data files CMBlikes.py finds the spectra, their numbers, the columns of files, the windows, the bins, the elements and the covariance that CMBlikes.f90 finds, with numbers from 0, and refuses the names that it refuses.", "quantifier": "for all names, fields, files, windows, spectra and covariances", "why_tests_cant": "the programs are in two languages and no data set uses all options", "anchors": ["python/CMBlikes.py:117-203", "python/CMBlikes.py:205-320", "python/CMBlikes.py:322-575", "source/CMBlikes.f90"]}
{"id": "C131", "title": "Python and Fortran give the same chi squared", "statement": "For the same data and spectra of theory CMBlikes.py gives twice the log likelihood of CMBlikes.f90, for the Hamimeche-Lewis, exact and Gaussian likelihoods, whatever eigenvectors, inverse and factors are found by the libraries, and spectra of theory for maps, aberration and calibration are the same.", "quantifier": "for all data, spectra, matrices and libraries that diagonalize, invert and factorize them", "why_tests_cant": "libraries differ in signs and order of eigenvectors; equality for some data does not show it for others", "anchors": ["python/CMBlikes.py:578-719", "source/CMBlikes.f90"]}
{"id": "C132", "title": "Theory spectra from files", "statement": "A spectrum read from a file has the values of its column, of either order of the two fields, at the multipoles of the rows, and zero at other multipoles up to the last; a second file adds only spectra that are not there, over the multipoles of the first.", "quantifier": "for all fields, columns, multipoles and files", "why_tests_cant": "wrong rows shift spectra by one multipole, which no plot shows", "anchors": ["python/CMBlikes.py:79-114"]}
{"id": "C133", "title": "The density of one parameter is a faithful estimate", "statement": "The smoothing kernel is positive, symmetric, of sum 1 and narrower than the grid; for samples of positive weight the density is defined, lies between 0 and 1, reaches 1 and is positive exactly where there are samples within the kernel; samples that are uniform up to both limits give a flat density with all corrections; the boundary correction of order 1 (2) has no bias for linear (quadratic) functions but for the factor that keeps it positive; the total is kept without limits; the unit of the weights does not matter; a mirror image of the samples gives the mirror image of the density.", "quantifier": "for all histograms, kernel widths, orders of both corrections and limits", "why_tests_cant": "tests compare with smooth distributions within tolerances; the ends and the corrections are where an error of a bin hides", "anchors": ["python/getdist/mcsamples.py:109-115", "python/getdist/mcsamples.py:1450-1548", "python/getdist/densities.py:79-86"]}
{"id": "C134", "title": "The density of two parameters is a faithful estimate", "statement": "The smoothing kernel is a Gaussian of the inverse covariance, positive, symmetric and of sum 1; for samples of positive weight the density is defined, lies between 0 and 1, reaches 1 and is positive exactly where there are samples within the kernel; samples that are uniform up to all limits give a flat density; the boundary correction of order 1 has no bias for planes but for the factor that keeps it positive; the unit of the weights does not matter; exchanging the parameters transposes the density and reversing one of them reverses it.", "quantifier": "for all histograms, kernels, orders of both corrections and limits", "why_tests_cant": "tests compare with smooth distributions within tolerances; edges, corners and narrow kernels are where an error hides", "anchors": ["python/getdist/mcsamples.py:1568-1586", "python/getdist/mcsamples.py:1711-1798", "python/getdist/densities.py:79-86"]}
{"id": "C135", "title": "The correlation length and the effective number of samples measure how independent samples are", "statement": "The autocorrelation at a distance is the mean product of weighted deviations that far apart in units of the variance; the correlation length is its sum up to the first value below the cut; it is at least the value at distance 0 and the effective number of samples is positive and at most the total weight over that value; both are the same for linear functions of a parameter, and the effective number for all units of weight; chains that move seldom have a larger correlation length than chains that move at every row; several chains add up to one correlation and the largest length is reported.", "quantifier": "for all chains, weights, parameters and cuts", "why_tests_cant": "tests use chains that are well mixed, where the cut is reached", "anchors": ["python/getdist/chains.py:423-475", "python/getdist/mcsamples.py:861-880"]}
{"id": "C136", "title": "The Gelman-Rubin number is the worst ratio of variance between chains to variance within chains", "statement": "The number is the largest ratio of the variance of the means of chains to the mean of their variances among all linear combinations of the parameters, and it is reached; it is undefined exactly when some combination does not vary within chains; it is never negative and zero exactly when all chains have the same means; it is unchanged by invertible linear changes of the parameters; for one parameter the reported number is the ratio of both variances, and no parameter of chains of equal weight is worse than the number.", "quantifier": "for all lists of chains, weights and numbers of parameters, and all eigenvalue routines that return eigenvalues and orthonormal eigenvectors", "why_tests_cant": "tests check one number for one set of chains", "anchors": ["python/getdist/chains.py:1396-1436", "python/getdist/mcsamples.py:882-903"]}
{"id": "C137", "title": "The test of Raftery and Lewis reports thinning and burn-in that do what they promise", "statement": "The tables count what follows what in the thinned chain; the statistics are twice the gain in the largest log likelihood by memory of one more step, hence not negative; the number of steps is the least after which a two-state chain with the counted frequencies is within epsilon of equilibrium for every start; if a chain is reported, then for every parameter and limit a first-order process is preferred at some factor up to the Markov factor and the burn-in suffices, the burn-in is that of one parameter and limit, independence is preferred for it at the last factor and at none between, and the Markov factor is needed; the loops end; a chain fails only when it is too short or a limit is never crossed.", "quantifier": "for all chains, weights, limits, numbers of parameters and state left by other chains", "why_tests_cant": "tests run one chain; failures are caught and look like short chains", "anchors": ["python/getdist/mcsamples.py:956-1080"]}
{"id": "C138", "title": "Likelihood statistics and the limits of N-dimensional regions are right", "statement": "The best fit is the first sample with the smallest minus log likelihood and each parameter's value there; the averages are those of the likelihood, its logarithm and its inverse, the last left out exactly when values span 30 or more, and they are ordered best fit, mean likelihood, mean logarithm, mean inverse, largest; the complexity is not negative and zero only if all samples with weight are best fits; adding a constant to all values adds it to all averages and changes nothing else; the unit of weight does not matter; the region of a fraction is made of the samples with smallest values and holds at least that fraction of the weight, without more samples than needed; regions are nested, limits are the extreme values in them and contain a best fit with no equal; statistics exist for all samples.", "quantifier": "for all samples, weights, parameters, fractions and orders argsort may return", "why_tests_cant": "tests compare one chain; short or heavily weighted chains are not tried", "anchors": ["python/getdist/mcsamples.py:2002-2037", "python/getdist/chains.py:381"]}
{"id": "C139", "title": "Principal components of parameters are right", "statement": "Means, standard deviations and correlations are those of the parameters after the logarithms asked for; the value of each component is the product (with logarithms) or sum of the terms printed for it; in each component the parameter asked for, or the one that counts most, has exponent one; without logarithms components have mean zero, the eigenvalue is the variance of the component in units of its squared coefficients, components of different eigenvalues are uncorrelated, eigenvalues ascend and no combination varies less than the first component; with parameters held fixed the eigenvalue and the error printed are what remains of the variance after the best prediction from them; by default logarithms are taken of parameters whose values do not cross zero; transformations belong to the parameter they were given for.", "quantifier": "for all samples, weights, parameters, transformations and fixed parameters, and all results eig, inv and argsort may return", "why_tests_cant": "tests print the analysis of one chain and compare nothing", "anchors": ["python/getdist/mcsamples.py:616-810"]}
{"id": "C140", "title": "Foregrounds of the BICEP, Keck and Planck likelihood are right", "statement": "The factor of dust for a map is the greybody seen through its band in units of that at the pivot frequency, both converted to temperatures of the CMB by the derivative of Planck's law, and so for synchrotron radiation with a power law; integrals over the band follow the trapezoidal rule; the unit of the response does not matter; the mean frequency lies in the band; for a band of one frequency an error of the centre moves the frequency, and the factor is 1 at the pivot; the correlation that remains between two frequencies is between 0 and 1, symmetric, that given for the pivots, and falls with distance; foregrounds are added to spectra of E and B modes and to nothing else; the added spectra of maps of one kind are a covariance, so no combination of maps gets negative power.", "quantifier": "for all bands, frequencies, parameters, multipoles and sets of maps", "why_tests_cant": "tests of the likelihood compare one number for one model", "anchors": ["source/CMB_BK_Planck.f90:9-12", "source/CMB_BK_Planck.f90:72-342"]}
{"id": "C141", "title": "Likelihoods of the Hubble constant and of abundances are normal", "statement": "The likelihood of the Hubble constant is normal in the value that belongs to the distance at the effective redshift, which is the Hubble constant of the model if distances have the form for which the conversion was made, or the Hubble constant itself without redshift; helium by mass is converted to helium by nucleons as counting atoms does, and the conversion grows from 0 to 1; helium and deuterium use their columns of the table of predictions, value and error of the same table, at the density of baryons and the extra neutrinos of the model; without consistency with nucleosynthesis only helium can be used; the likelihood is normal with the variances of measurement and prediction added, and the offset added to the prediction; ratios of the likelihood are ratios of normal densities.", "quantifier": "for all settings, tables, models and mixes of hydrogen and helium", "why_tests_cant": "tests run one data set at one model", "anchors": ["source/HST.f90:26-59", "source/bbn.f90:11-52", "source/ElementAbundances.f90:51-116"]}
{"id": "C142", "title": "Native binned Planck likelihood is that of the selected bins", "statement": "The bins used are those of the named spectra with their centres in the range, each once and in order; data and covariance are taken at the places of these bins among all bins; the highest multipole asked for is that of the bins used; the likelihood is normal in the sums of C_l over bins with the weights, divided by the square of the calibration, with the inverse of the covariance of the used bins; leaving bins out is the same as giving them the values that fit best; of a binary file the upper triangle of the covariance counts; the template for WMAP is the scale times the value of the file and is added with its amplitude; every setting has a defined result.", "quantifier": "for all files, ranges, spectra, calibrations, covariances and templates", "why_tests_cant": "tests compare one number for the release", "anchors": ["source/CMB.f90:27-46", "source/CMB.f90:114-190", "source/CMB.f90:193-320"]}
{"id": "C143", "title": "Effective numbers of samples for density estimates lie between 0 and the number of rows", "statement": "The effective number of samples for a density of one or two parameters is positive and at most the square of the sum of weights over the sum of their squares, so at most the number of rows, which uncorrelated samples of equal weight give; it does not depend on the unit of weights or on unit and origin of the parameter; it is the square of the sum of weights over the sum of squared weights and twice the kernel-weighted correlations at all distances up to the first that is below the threshold; chains of any length from 2 rows give a number; the bandwidth goes with this number to the power -1/(4m+5) for correction order m, is that of the search unless it failed or is too small, then the rule of thumb for normal distributions, and an error is raised only if asked for and the parameter is not excepted.", "quantifier": "for all weights, values, widths, distances, thresholds and orders", "why_tests_cant": "tests use a few chains and look at the density only", "anchors": ["python/getdist/chains.py:477-625", "python/getdist/mcsamples.py:1140-1195"]}
{"id": "C144", "title": "Split tests compare quantiles of equal parts; correlation steps give correlations of thinned chains", "statement": "For each number of parts the split test is the mean squared difference of the quantile over the parts from that of all samples, in units of the standard deviation, and it is a number whenever there are samples; the table of correlation steps holds at distance i the sum over chains of products of deviations of thinned samples i places apart, divided by the number of terms and the variance, and is defined for all chains.", "quantifier": "for all weights, values, numbers of parts, chains, thinnings and distances", "why_tests_cant": "tests look at the file of one set of chains", "anchors": ["python/getdist/mcsamples.py:924-951", "python/getdist/mcsamples.py:1093-1128", "python/getdist/mcsamples.py:603-614", "python/getdist/chains.py:781-823"]}
{"id": "C145", "title": "The largest Gelman-Rubin eigenvalue is that of the worst combination; densities, limits and edge kernels are consistent", "statement": "GelmanRubinEvalues returns eigenvalues of which the largest is the largest ratio of the variance of chain means to the mean variance over all linear combinations of parameters, and some combination has it; the value of a density on equally spaced points is the cubic with the given second derivatives, goes through the points, is defined in the range and stops outside it; the confidence level of Limits lies between a level above which at least the fraction lies and one above which less lies, a limit is the first (last) position above the level or the end of the range, and is always defined; a kernel sums to one, is symmetric and decreasing, and the edge corrections make the cut kernel sum to one with mean zero.", "quantifier": "for all covariances, densities, fractions, widths and windows", "why_tests_cant": "no test of the Fortran program looks at these routines", "anchors": ["source/samples.f90:40-66", "source/samples.f90:113-265", "source/SampleCollector.f90:255-300"]}
{"id": "C146", "title": "Mixtures of normal distributions condition and marginalize as distributions", "statement": "The weights of a mixture are the given ones divided by their sum; its total covariance is the covariance of the mixture; the conditional mixture at values of some parameters has the density of the mixture at those values up to a factor; marginalizing in two steps is marginalizing in one; the density of one parameter is that of the marginal mixture; the automatic ranges contain the interval of the given number of standard deviations of each component or its cut at the limits; the lower and upper limits are those given; drawing returns the given number of samples inside the limits.", "quantifier": "for all means, covariances, weights, limits, fixed parameters and values", "why_tests_cant": "tests compare densities of one mixture whose components are ten standard deviations apart", "anchors": ["python/getdist/gaussian_mixtures.py:12-323", "python/getdist/gaussian_mixtures.py:325-400", "python/getdist/tests/getdist_test.py:161-174"]}
{"id": "C147", "title": "Automatic bandwidths are those of least estimated error and follow the parameters", "statement": "Each sample inside the range has a bin of the array that holds it; the function solved for the width of one parameter is defined for all bins that are not flat, is the width less the plug-in width from derivatives seven to two, and has no zero that is not positive; the estimates of integrals of derivatives of two parameters have the signs of the integrals; the widths without correlation minimize the mean square error; the error of a correlated kernel is variance plus a quarter of the squared second derivative along it; the chosen kernel has no larger error than that without correlation; sheared samples are not correlated, and the kernel of the parameters is that of the sheared ones, with the width of the parameter with limits kept; reflecting a parameter reflects the kernel; settings left open are taken from the samples.", "quantifier": "for all bins, coefficients, numbers of samples, limits, correlations and results of the solvers", "why_tests_cant": "tests plot a few densities", "anchors": ["python/getdist/kde_bandwidth.py:47-286", "python/getdist/mcsamples.py:1195-1306"]}
{"id": "C148", "title": "The Python likelihood of supernovae is the Fortran one and does not depend on earlier calls", "statement": "For the same light curves, covariances and inverse the value for alpha and beta is that of the Fortran likelihood, with one or two values of scriptm; the inverse used is that of the covariance at alpha and beta, whatever was computed before; with inverses computed beforehand the marginal likelihood is that without; the grid is all points of the disc once; the marginal likelihood is the sum of the likelihoods of the points times the area of a cell; the two sets of supernovae are both not empty, or there is one value; the array of each column has the numbers of the rows.", "quantifier": "for all light curves, covariances, grids, inversions, states of the cache and files", "why_tests_cant": "the test program of the file has three numbers for two data sets, each with a new object", "anchors": ["python/planck/SN.py:71-295", "source/supernovae_JLA.f90:773-1228"]}
{"id": "C149", "title": "A simulated data set has the noise of the experiment that was asked for", "statement": "Each row of the noise file is the white noise of the given sensitivity (in muK arcmin, or as a variance) divided by the square of the transform of the Gaussian beam whose full width at half maximum is the given one, for temperature and for polarization, with the lensing noise of that multipole; there is a row for each multipole from lmin to lmax and a name for each number; sensitivity and variance together are refused; the settings name these files and limits; read back by the likelihood, each field has its own noise and two fields have none in common; the fields used are those that the file of spectra has; lensing alone, an array of lensing noise and a noise of zero are possible.", "quantifier": "for all sensitivities, variances, widths of the beam, ranges of multipoles, columns and lensing noise", "why_tests_cant": "A test has one sensitivity, one beam and one file with all columns; the branches without temperature and with an array are not run.", "anchors": ["python/makePerfectForecastDataset.py:13-110", "python/CMBlikes.py:251-275"]}
{"id": "C150", "title": "Settings with tags go to the data set of that tag, and likelihoods that exclude each other are never used together", "statement": "The data sets of a name are the tags of the keys name[tag] with a value, each once, with that value; a key with a value that begins with name[ and does not end with its only ']' stops the run, and nothing else does; the settings of every such tag are those of the keys name[tag,setting] with their values; no key is for two tags, nor for a tag and a setting; the key of a tag for another name is name[tag]. The run goes on just if no likelihood of the list, nor its common data, names a likelihood of the list as a conflict, and the first that does reports it.", "quantifier": "for all settings, names, tags and lists of likelihoods", "why_tests_cant": "Tests use a few data sets without odd keys and without conflicts; the order of the likelihoods and chains of common data are not varied.", "anchors": ["source/settings.f90:224-287", "source/likelihood.f90:68-94", "source/GeneralTypes.f90:739-750"]}
{"id": "C151", "title": "Coadded spectra have the least chi^2, and binned spectra are those of the fields of the maps", "statement": "Each element of the matrix of a bin is the weighted sum of C_l of the fields of its two maps (zero for TB and EB and for spectra that are not used), so the matrix is symmetric; the loops over elements that are not zero give the products of the matrices; for every inverse covariance that is symmetric the chi^2 of any spectra is that of the coadded spectra plus the square of the difference with the returned matrix, so that the coadded spectra are the minimum and that matrix their inverse covariance; spectra in no data are zero; the covariance of the first spectrum is the block of its rows, each element times the factors of its row and its column.", "quantifier": "for all numbers of maps, bins, weights, data, calibrations, nuisance components and solvers that solve", "why_tests_cant": "There is one file of data and a few spectra; whether the minimum is one can only be seen for all spectra.", "anchors": ["python/planck/CMB_plik.py:101-112", "python/planck/CMB_plik.py:157-203", "python/planck/CMB_plik.py:238-291"]}
{"id": "C152", "title": "Smoothing gives Gaussian means around each element and keeps covariances covariances", "statement": "Each smoothed element is a mean of the data with weights that are not negative, sum to one and do not depend on the data, so it lies between the smallest and the largest element and constants are not changed; the weights are those of a Gaussian around the element; the result has the length of the data; a smoothed covariance has both indices smoothed with the same weights, is symmetric if the covariance is, and has no negative variance if the covariance has none.", "quantifier": "for all data, lengths, widths and covariances", "why_tests_cant": "A shift of half an element and lengths below that of the window are not seen in plots of long spectra.", "anchors": ["python/planck/smoothing.py:9-12", "python/planck/smoothing.py:15-22"]}
{"id": "C153", "title": "The Union 2.1 likelihood is half the chi^2 of the distance moduli, marginalized over H0", "statement": "The likelihood is half the chi^2 of the differences between the moduli of the luminosity distances (1+z)^2 D_A in units of 10 pc and those of the data with the inverse covariance of the file; it is zero for a model with the moduli of the data and not negative if the inverse covariance has no negative variance; distances that differ by a factor, as those of another H0, give the same likelihood; the covariance with systematic errors is used by default.", "quantifier": "for all numbers of supernovae, redshifts, moduli, distances, inverse covariances and settings", "why_tests_cant": "One file of data and a few models do not show for which matrices the mean of the moduli drops out.", "anchors": ["source/supernovae_Union2.f90:13-16", "source/supernovae_Union2.f90:80-152"]}
{"id": "C154", "title": "Gaussian priors are those of the settings, for parameters and for linear combinations", "statement": "Each parameter of a linear combination has its weight from the settings and every other one has none; reading stops if and only if there are less weights than parameters or a prior has no mean and width; a parameter has the prior of its setting if it varies or if priors of fixed parameters are included and none otherwise; exp(-logLike) of the priors is the product of the Gaussians of the parameters and the combinations that have a prior; fixed parameters have no effect unless they are included.", "quantifier": "for all numbers of parameters and combinations, weights, means, widths, settings and points", "why_tests_cant": "Combinations are used in few runs, with parameters that vary.", "anchors": ["source/BaseParameters.f90:164-205", "source/calclike.f90:111-134"]}

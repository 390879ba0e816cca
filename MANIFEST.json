{
 "claims": [
  {
   "property": "C01",
   "status": "proved",
   "theorems": [
    "C01_ini_round_trip",
    "C01_bool_round_trip"
   ],
   "note": "Round trip for every representable dictionary, every read order, with the kept INCLUDE/DEFAULT lists; booleans read back by bool()."
  },
  {
   "property": "C02",
   "status": "proved",
   "theorems": [
    "C02_first_definition_wins",
    "C02_include_location"
   ],
   "note": "Refinement to first definition in document order over any finite file tree; lookup location of nested files."
  },
  {
   "property": "C03",
   "status": "proved",
   "theorems": [
    "C03_duplicate_detection"
   ],
   "note": "Error iff an unprotected second definition, for trees whose values expand without error."
  },
  {
   "property": "C04",
   "status": "proved",
   "theorems": [
    "C04_expansion_is_tokenwise",
    "C04_plain_text_unchanged",
    "C04_always_terminates"
   ],
   "note": "Token-wise substitution; plain text unchanged; termination."
  },
  {
   "property": "C05",
   "status": "partial",
   "theorems": [
    "C05_default_used_when_unset",
    "C05_set_value_ignores_default",
    "C05_bool_getter",
    "C05_bool_list_refuted"
   ],
   "note": "Getter rules proved; the boolean list getter violates the T/F rule (refuted)."
  },
  {
   "property": "C06",
   "status": "partial",
   "theorems": [
    "C06_comments_partial",
    "C06_comments_refuted"
   ],
   "note": "Proved for the lines of the loaded file; refuted for DEFAULT files (comment leaks to the next new key)."
  },
  {
   "property": "C07",
   "status": "proved",
   "theorems": [
    "C07_paramnames_round_trip",
    "C07_bang_label_refuted"
   ],
   "note": "Round trip for all lists of representable parameters; '!' in a label is excluded (shown not to survive)."
  },
  {
   "property": "C08",
   "status": "partial",
   "theorems": [
    "C08_merge_is_components",
    "C08_merge_default_partial",
    "C08_group_lost_refuted"
   ],
   "note": "Exact components with keep_names_1st=True; default mode characterised exactly and shown to lose groups whose names are all keys of one dictionary."
  },
  {
   "property": "C09",
   "status": "proved",
   "theorems": [
    "C09_number_of_name",
    "C09_par_with_name",
    "C09_par_with_renames"
   ],
   "note": "First-match specification of numberOfName, hasParam, parWithName with and without renames."
  },
  {
   "property": "C10",
   "status": "proved",
   "theorems": [
    "C10_delete_indices",
    "C10_filtered_copy_names",
    "C10_filtered_copy",
    "C10_counts",
    "C10_add_derived"
   ],
   "note": "Order-preserving deletion/selection, counts and addDerived."
  },
  {
   "property": "C11",
   "status": "proved",
   "theorems": [
    "C11_bounds_round_trip",
    "C11_reachable"
   ],
   "note": "Over any number type whose formatted form reads back to the same number; both for a single object and every object reachable by reads and setRange calls."
  },
  {
   "property": "C12",
   "status": "partial",
   "theorems": [
    "C12_set_range_numbers_partial",
    "C12_history",
    "C12_fixed_value",
    "C12_fixed_value_dict",
    "C12_clear_refuted",
    "C12_infinite_refuted",
    "C12_texts"
   ],
   "note": "Numbers set a limit and fixed values are found as claimed. The clearing half fails: None or 'N' leaves a limit already stored in place (C12_clear_refuted)."
  },
  {
   "property": "C13",
   "status": "proved",
   "theorems": [
    "C13_rescale_entries",
    "C13_unknown_name_ignored",
    "C13_stays_symmetric",
    "C13_inverse_restores"
   ],
   "note": "Entries over exact rationals."
  },
  {
   "property": "C14",
   "status": "proved",
   "theorems": [
    "C14_merged_names",
    "C14_merged_entries",
    "C14_merged_symmetric"
   ],
   "note": "Entries of any type."
  },
  {
   "property": "C15",
   "status": "proved",
   "theorems": [
    "C15_correlation_entries",
    "C15_unit_diagonal",
    "C15_symmetric",
    "C15_cov_to_corr",
    "C15_merged_refuted"
   ],
   "note": "Over the real numbers, for matrices with positive diagonal. C15_merged_refuted: the matrix returned by a merge has size 0, so its correlation() is not normalised."
  },
  {
   "property": "C16",
   "status": "proved",
   "theorems": [
    "C16_keeps_every_kth_unit",
    "C16_kept_rows",
    "C16_small_weights",
    "C16_small_weights_refuted",
    "C16_needs_integers"
   ],
   "note": "Row multiplicities are floor differences of the cumulative weight and thinned unit m is original unit m*factor; C16_small_weights gives the exact rows when no weight exceeds the factor, where C16_small_weights_refuted shows one extra row 0 (the statement of C16 covers the other case). Non-integral weights raise."
  },
  {
   "property": "C17",
   "status": "partial",
   "theorems": [
    "C17_weighted_thin",
    "C17_zero_weight_row_refuted"
   ],
   "note": "Increasing distinct rows, positive weights and total weight proved; refuted part: a zero-weight first row can be kept (C17_zero_weight_row_refuted)."
  },
  {
   "property": "C18",
   "status": "proved",
   "theorems": [
    "C18_make_single",
    "C18_split_again",
    "C18_split_again_cut",
    "C18_no_loglikes_refuted"
   ],
   "note": "Offsets and concatenation for any number of chains; re-splitting returns the chains, with rows below the weight ratio removed from each. C18_no_loglikes_refuted: without likelihoods re-splitting raises."
  },
  {
   "property": "C19",
   "status": "partial",
   "theorems": [
    "C19_filters",
    "C19_filters_and_cuts",
    "C19_survivors_returned",
    "C19_weight_cut",
    "C19_weighted_thin",
    "C19_empty_chain_refuted",
    "C19_thin_refuted",
    "C19_burn_refuted",
    "C19_index_filter_refuted"
   ],
   "note": "Proved for any sequence of boolean filters and weight cuts on combined samples. Refuted for thin, burn removal and index filters, which leave the offsets of the old rows, and when a chain is left empty."
  },
  {
   "property": "C20",
   "status": "proved",
   "theorems": [
    "C20_filter",
    "C20_thin",
    "C20_burn",
    "C20_burn_rows",
    "C20_reweight",
    "C20_any_sequence"
   ],
   "note": "Alignment for any sequence of the row operations, for every selector; cached statistics cleared."
  },
  {
   "property": "C21",
   "status": "proved",
   "theorems": [
    "C21_entries",
    "C21_symmetric",
    "C21_diagonal",
    "C21_positive_semidefinite",
    "C21_weight_scale",
    "C21_mean_shift"
   ],
   "note": "Over the reals (floating point taken as exact); independent of the uninitialised matrix."
  },
  {
   "property": "C22",
   "status": "proved",
   "theorems": [
    "C22_lower",
    "C22_upper",
    "C22_monotone",
    "C22_two_tail",
    "C22_empty"
   ],
   "note": "For every argsort meeting its contract (a concrete one is exhibited), every row range, exact rational arithmetic."
  },
  {
   "property": "C23",
   "status": "proved",
   "theorems": [
    "C23_formula",
    "C23_compose",
    "C23_weights_do_not_grow",
    "C23_cool_formula",
    "C23_cool_compose",
    "C23_cool_one"
   ],
   "note": "Over the reals; the normalisation constants are shown to cancel."
  },
  {
   "property": "C24",
   "status": "partial",
   "theorems": [
    "C24_combined",
    "C24_separate_first_chain_only",
    "C24_separate_refuted"
   ],
   "note": "Proved for combined samples up to the code's relative tolerance 1e-12. Refuted for separately stored chains: only the first chain is examined."
  },
  {
   "property": "C25",
   "status": "partial",
   "theorems": [
    "C25_views_agree",
    "C25_delete_own_entries",
    "C25_latest_submission",
    "C25_resubmission_refuted"
   ],
   "note": "Proved for every history in which no submitted job re-uses the id, name or a root of a job still listed (C25_views_agree, C25_delete_own_entries); C25_latest_submission covers re-used names without deletions. False in general: resubmitting a run while its old entry is listed (C25_resubmission_refuted): deleting the old id drops the new job's entries and the new id can no longer be deleted (KeyError)."
  },
  {
   "property": "C26",
   "status": "partial",
   "theorems": [
    "C26_crash_partial",
    "C26_first_save",
    "C26_completed_save",
    "C26_gap_refuted"
   ],
   "note": "Proved at every crash point except the gap between os.remove and shutil.move, where the complete new index is in the temporary file only (C26_crash_partial) and loadJobIndex silently returns an empty index (C26_gap_refuted)."
  },
  {
   "property": "C27",
   "status": "partial",
   "theorems": [
    "C27_accepted_iff_even_split",
    "C27_script_values",
    "C27_defaults_accepted",
    "C27_too_many_files_refuted",
    "C27_python2_refuted"
   ],
   "note": "Proved for python 3 and no more files than runsPerJob (what runbatch submits), C27_script_values. False otherwise: more files gives OMP_NUM_THREADS=0 and 0 processors per node (C27_too_many_files_refuted); python 2 accepts uneven splits (C27_python2_refuted)."
  },
  {
   "property": "C28",
   "status": "proved",
   "theorems": [
    "C28_template_value",
    "C28_template_absent",
    "C28_priority",
    "C28_ext_env_refuted"
   ],
   "note": "Priority order for all combinations of sources. Extra finding: the ext_env fallback reads the variable literally called ext_env (C28_ext_env_refuted)."
  },
  {
   "property": "C29",
   "status": "partial",
   "theorems": [
    "C29_permutation",
    "C29_name_permutation",
    "C29_distinct",
    "C29_substitutions",
    "C29_normalized_tag",
    "C29_idempotent_partial",
    "C29_idempotent_refuted"
   ],
   "note": "Permutation invariance, distinctness for underscore-free names and normalisation of tags are proved. Idempotence is proved for names that do not start with \"post\" and is false for others: normalizeDataTag(\"post_A\") is \"A_post\" only on the first application (C29_idempotent_refuted)."
  },
  {
   "property": "C30",
   "status": "partial",
   "theorems": [
    "C30_requested",
    "C30_no_redundant",
    "C30_identities",
    "C30_order",
    "C30_non_redundant_kept",
    "C30_name_kept_partial",
    "C30_lost_refuted"
   ],
   "note": "Proved: no kept importance job shares its normalised name with a full run or with another listed job; full runs are all kept in order; kept importance jobs are an ordered selection of the requested ones; those with no redundant ancestor are kept; without nested importance jobs each name survives. False in general: a job derived by an importance filter from a removed redundant job is lost (C30_lost_refuted)."
  },
  {
   "property": "C31",
   "status": "proved",
   "theorems": [
    "C31_resolve",
    "C31_finds_job",
    "C31_finds_importance_job",
    "C31_paramtag_text",
    "C31_job_tags",
    "C31_post_mark_once",
    "C31_any_query",
    "C31_underscore_refuted",
    "C31_root"
   ],
   "note": "For every query the result is decided by its normalised form (C31_any_query); for underscore-free data names not starting with \"post\" any order and any _post marks find the job. A data name containing an underscore is not found by its own tag (C31_underscore_refuted)."
  },
  {
   "property": "C32",
   "status": "proved",
   "theorems": [
    "C32_full_run_finished",
    "C32_importance_finished",
    "C32_parent_changed",
    "C32_checkpoint_continue",
    "C32_getdist_update",
    "C32_converge_better"
   ],
   "note": ""
  },
  {
   "property": "C33",
   "status": "partial",
   "theorems": [
    "C33_existing_partial",
    "C33_terminates",
    "C33_all_exist",
    "C33_names_distinct",
    "C33_numbered_refuted"
   ],
   "note": "The form without argument is proved. chainNames(n) returns the names of chains 0..n-1 instead of 1..n (C33_numbered_refuted)."
  },
  {
   "property": "C34",
   "status": "partial",
   "theorems": [
    "C34_groups_partial",
    "C34_files_partial",
    "C34_files_refuted",
    "C34_combined",
    "C34_selected_once",
    "C34_long_names_refuted",
    "C34_files_distinct",
    "C34_job_name"
   ],
   "note": "Groups, combined scripts and command order proved for all inputs under the stated name conditions; refuted in general: '.ini' elsewhere in a path is removed (C34_files_refuted) and long names crash in Python 3 (C34_long_names_refuted)."
  },
  {
   "property": "C35",
   "status": "proved",
   "theorems": [
    "C35_precedence",
    "C35_single_source",
    "C35_defaults",
    "C35_made_iff",
    "C35_minimize",
    "C35_importance",
    "C35_importance_minimize"
   ],
   "note": "For every grid: own options, default files, minimize and importance variants. Ini values and dictionaries are abstract; saving and reading are C01 and C57."
  },
  {
   "property": "C36",
   "status": "partial",
   "theorems": [
    "C36_exactly_partial",
    "C36_order",
    "C36_no_duplicates",
    "C36_no_options",
    "C36_datatag_refuted",
    "C36_paramtag_refuted",
    "C36_monotone_partial"
   ],
   "note": "Exact selection, order and absence of duplicates proved when --datatag/--paramtag are not mixed with --data/--param filters; refuted otherwise (C36_datatag_refuted, C36_paramtag_refuted)."
  },
  {
   "property": "C37",
   "status": "partial",
   "theorems": [
    "C37_groups",
    "C37_path_and_name",
    "C37_two",
    "C37_addressable_partial",
    "C37_three_refuted",
    "C37_short_path_refuted"
   ],
   "note": "Distinct names proved when at most two chains share a root (C37_two, C37_addressable_partial), exact naming rule for any group (C37_groups). Refuted in general: three chains can collide (C37_three_refuted) and a path that ends another makes the loop crash (C37_short_path_refuted)."
  },
  {
   "property": "C38",
   "status": "partial",
   "theorems": [
    "C38_levels_enclose_partial",
    "C38_levels_half_edge_partial",
    "C38_levels_antitone_partial",
    "C38_errors",
    "C38_refuted"
   ],
   "note": "Proved without half weights (any shape, non-negative values) and with half weights for densities vanishing on the edges; errors characterised. Refuted in general for half_edge=True (the default): the level interpolates halved edge values."
  },
  {
   "property": "C39",
   "status": "proved",
   "theorems": [
    "C39_trapezoid",
    "C39_trapezoid_2d",
    "C39_normalize_integral",
    "C39_normalize_integral_2d",
    "C39_normalize_max",
    "C39_normalize_empty"
   ],
   "note": "1D and 2D integrals are trapezoidal sums with edge/corner weights for at least two points per axis; normalisation by integral (1D, 2D) and by maximum. Exact arithmetic; a vanishing integral is excluded."
  },
  {
   "property": "C40",
   "status": "proved",
   "theorems": [
    "C40_smallest",
    "C40_defined",
    "C40_beyond",
    "C40_even",
    "C40_form_refuted"
   ],
   "note": "The table is modelled entry by entry, search by bisection. The comment's claim that all sizes are 2^n 3^m 5^r is refuted (234881024 = 7*2^25)."
  },
  {
   "property": "C41",
   "status": "partial",
   "theorems": [
    "C41_fft",
    "C41_convolve1D",
    "C41_longer_second_refuted",
    "C41_commutes",
    "C41_polynomials",
    "C41_too_large"
   ],
   "note": "Proved over exact reals for every length with the second array not longer than the first (convolve1D), and for all lengths through the FFT branch (C41_fft), including the default irfft length, which is right only because every tabulated size is even. Refuted for a longer second array in the np.convolve branch: 'same' then has the length of the second array (C41_longer_second_refuted). Rounding is not modelled; arrays beyond the table of sizes raise IndexError (C41_too_large)."
  },
  {
   "property": "C42",
   "status": "partial",
   "theorems": [
    "C42_rounds",
    "C42_zero",
    "C42_monotone",
    "C42_sign",
    "C42_figures_positive",
    "C42_special_refuted"
   ],
   "note": "Proved for all finite decimal expansions and numbers of figures (nearest value, exact figures, trailing zeros, order, sign). Infinities and NaN are printed as 0.000 (C42_special_refuted)."
  },
  {
   "property": "C43",
   "status": "partial",
   "theorems": [
    "C43_columns",
    "C43_cell",
    "C43_lengths",
    "C43_last_shorter_partial",
    "C43_last_shorter_refuted",
    "C43_defined"
   ],
   "note": "C43_columns, C43_cell, C43_lengths: every parameter appears once, in column order, in a table as low as possible. The claim that only the last column is shorter is proved when the columns before the last can be filled (C43_last_shorter_partial) and is false otherwise (C43_last_shorter_refuted: five parameters in four columns give columns of 2, 2, 1, 0)."
  },
  {
   "property": "C44",
   "status": "partial",
   "theorems": [
    "C44_tag",
    "C44_roundtrip_partial",
    "C44_label_refuted",
    "C44_wide_refuted",
    "C44_table",
    "C44_table_tail",
    "C44_table_value",
    "C44_table_two",
    "C44_last",
    "C44_missing",
    "C44_best"
   ],
   "note": "Tags and kinds correspond (C44_tag) and table entries show what belongs to the tail: the bound (C44_table, C44_table_tail, C44_table_value), the distances from the mean or the deviation (C44_table_two), the best fit (C44_best); C44_last and C44_missing cover limit numbers. The file round trip needs a label and numbers of at most 14 characters (C44_roundtrip_partial): C44_label_refuted (without a label the last tag is read as label), C44_wide_refuted (negative numbers with three-digit exponents run together)."
  },
  {
   "property": "C45",
   "status": "partial",
   "theorems": [
    "C45_idempotent",
    "C45_class",
    "C45_sampled",
    "C45_fixed",
    "C45_derived",
    "C45_exactly_one_partial",
    "C45_dynamic_refuted"
   ],
   "note": "Idempotence and preservation of the class hold for all entries, and the three tests are characterised for all entries. Exactly one class holds for plain entries; entries with a text or function as value are fixed and derived at once (C45_dynamic_refuted)."
  },
  {
   "property": "C46",
   "status": "partial",
   "theorems": [
    "C46_range_partial",
    "C46_range_repeat_partial",
    "C46_prior_refuted",
    "C46_dist_refuted",
    "C46_params_repeat",
    "C46_params_frame",
    "C46_params_partial",
    "C46_params_refuted"
   ],
   "note": "False of the code: get_range replaces a prior list by a dictionary (C46_prior_refuted) and forgets the distribution, so that the second answer differs (C46_dist_refuted); get_info_params writes additions of post into the info (C46_params_refuted). Proved: when the entry or info stays unchanged, what may change, and that the second call of get_info_params gives the same answer for all infos. scipy's interval and float of texts are parameters."
  },
  {
   "property": "C47",
   "status": "partial",
   "theorems": [
    "C47_bins",
    "C47_defined",
    "C47_weights",
    "C47_histogram_2d",
    "C47_range",
    "C47_limits_refuted"
   ],
   "note": "Proved for samples within the range record (C47_bins, C47_defined, C47_weights, C47_histogram_2d) and for the ranges that _initParam sets if the limits contain the samples (C47_range). C47_limits_refuted: with a lower limit above the samples the range is reversed and samples get indices beyond the last bin. Arithmetic is exact."
  },
  {
   "property": "C48",
   "status": "proved",
   "theorems": [
    "C48_ends",
    "C48_monotone",
    "C48_boundary",
    "C48_segment"
   ],
   "note": "Exact arithmetic. C48_ends, C48_monotone, C48_boundary; C48_segment bounds the weight of each segment."
  },
  {
   "property": "C49",
   "status": "partial",
   "theorems": [
    "C49_mass",
    "C49_append",
    "C49_columns_partial",
    "C49_dots_refuted"
   ],
   "note": "C49_mass, C49_append, C49_columns_partial. Missing: names with dots; C49_dots_refuted: a common name with a dot always raises, since the columns are looked up as attributes."
  },
  {
   "property": "C50",
   "status": "partial",
   "theorems": [
    "C50_rows_partial",
    "C50_rows_refuted",
    "C50_repeat_refuted",
    "C50_lines_refuted",
    "C50_words_refuted"
   ],
   "note": "C50_rows_partial: holds for row numbers 0,1,2,... C50_rows_refuted: other rows are written with the values of row 0, 1, ...; C50_repeat_refuted; C50_lines_refuted: no newlines are written; C50_words_refuted: weight and likelihood run together without cooling."
  },
  {
   "property": "C51",
   "status": "partial",
   "theorems": [
    "C51_names",
    "C51_swap",
    "C51_inverse_partial",
    "C51_clash_refuted",
    "C51_file",
    "C51_pairs",
    "C51_map_file",
    "C51_odd_refuted",
    "C51_minimum_partial",
    "C51_minimum_long_refuted",
    "C51_minimum_label_refuted",
    "C51_minimum_unwritten_refuted",
    "C51_labels_differ_refuted",
    "C51_first_line_refuted"
   ],
   "note": "Proved: names are replaced simultaneously and as a whole (swap), other fields are kept, the written .paramnames file loads as the renamed parameters, and the lines made for a .minimum file are read as the old ones renamed when the new names fit; renaming back restores the parameters if no kept name is a new name. Refuted (real defects): a new name can clash with a kept one, names that are too long run into the label, a missing label gives IndexError, the .minimum file is never written (opened for reading), labels are looked up by different names in the two files, the first parameter of a file without chi-sq line is skipped."
  },
  {
   "property": "C52",
   "status": "partial",
   "theorems": [
    "C52_delete_jobs",
    "C52_script_partial",
    "C52_unconfirmed",
    "C52_ids_refuted",
    "C52_range_refuted",
    "C52_id_number"
   ],
   "note": "jobqueue.deleteJobs proved for every selection (C52_delete_jobs); the script proved for no option and --delete_id_min (C52_script_partial) and without --confirm. False of the script with --delete_id_range (also deletes the whole filtered batch, C52_range_refuted) and --delete_ids (never deletes anything, C52_ids_refuted)."
  },
  {
   "property": "C53",
   "status": "partial",
   "theorems": [
    "C53_rows",
    "C53_whole",
    "C53_all_refuted"
   ],
   "note": "Proved for exact arithmetic: for fractions below 1 the copy has exactly the rows after the fraction rounded down; without a fraction or with burn-in already removed, all rows. Refuted (real defect): if the fraction removes all rows, all rows are copied."
  },
  {
   "property": "C54",
   "status": "partial",
   "theorems": [
    "C54_save_back_partial",
    "C54_save_back_refuted",
    "C54_named_save"
   ],
   "note": "Proved when includes are kept; refuted otherwise (writes over the last DEFAULT/INCLUDE file)."
  },
  {
   "property": "C55",
   "status": "proved",
   "theorems": [
    "C55_keywords_round_trip"
   ],
   "note": "Keyword storage round trip."
  },
  {
   "property": "C56",
   "status": "proved",
   "theorems": [
    "C56_update_renames"
   ],
   "note": "Lookup by linked aliases after updateRenames, for every choice made by set.pop()."
  },
  {
   "property": "C57",
   "status": "proved",
   "theorems": [
    "C57_layout",
    "C57_read_order"
   ],
   "note": ""
  },
  {
   "property": "C58",
   "status": "partial",
   "theorems": [
    "C58_submitted_iff",
    "C58_filters",
    "C58_not_queued_partial",
    "C58_not_queued_refuted",
    "C58_kinds"
   ],
   "note": "Submission condition proved for all grids and options; --not_queued holds for all runs but --importance_minimize, where it is refuted (C58_not_queued_refuted: looked up under the wrong name)."
  },
  {
   "property": "C59",
   "status": "partial",
   "theorems": [
    "C59_exact",
    "C59_files_partial",
    "C59_dictionaries_refuted",
    "C59_file_over_dictionary_refuted"
   ],
   "note": "Exact rule proved (C59_exact); the claim holds for ini files (C59_files_partial) and is refuted for dictionaries (C59_dictionaries_refuted) and for files against dictionaries (C59_file_over_dictionary_refuted)."
  },
  {
   "property": "C60",
   "status": "proved",
   "theorems": [
    "C60_first_existing",
    "C60_substitutes",
    "C60_update"
   ],
   "note": "Files that exist are an arbitrary predicate; the settings' renamer is an arbitrary function."
  },
  {
   "property": "C61",
   "status": "proved",
   "theorems": [
    "C61_lookup",
    "C61_same_words",
    "C61_sound",
    "C61_ambiguous"
   ],
   "note": "For every directory tree for which construction succeeds (see C37 for when it does not)."
  },
  {
   "property": "C62",
   "status": "partial",
   "theorems": [
    "C62_interval_partial",
    "C62_level_partial",
    "C62_array",
    "C62_list_refuted",
    "C62_monotone_refuted",
    "C62_small_refuted",
    "C62_tie_refuted"
   ],
   "note": "Interval and level theorems proved when some grid point exceeds the level. Refuted: a list argument gives one interval only; the level is interpolated towards the wrong neighbour (not monotone, fails for small probabilities); ties of the maximum fail. Splines not modelled."
  },
  {
   "property": "C63",
   "status": "partial",
   "theorems": [
    "C63_weights_partial",
    "C63_small_axis_refuted",
    "C63_spacing_refuted"
   ],
   "note": "Weights proved when the first axis is at least as long as the number of dimensions. Refuted: IndexError otherwise; the grid spacing is omitted."
  },
  {
   "property": "C64",
   "status": "proved",
   "theorems": [
    "C64_cache_transparent",
    "C64_cache_errors",
    "C64_reused_id_refuted"
   ],
   "note": "The hypothesis that an id always stands for one array is needed: C64_reused_id_refuted shows a wrong result otherwise (the docstring warns of it). Given transforms (xfft, yfft) are not modelled."
  },
  {
   "property": "C65",
   "status": "proved",
   "theorems": [
    "C65_convolve2D",
    "C65_delta"
   ],
   "note": "Exact reals; shapes with no empty axis and within the table of transform sizes. The cache is modelled for the one-dimensional function only."
  },
  {
   "property": "C66",
   "status": "proved",
   "theorems": [
    "C66_autoConvolve",
    "C66_largest_at_zero",
    "C66_autoCorrelation",
    "C66_too_long"
   ],
   "note": "Exact reals; non-empty data, requested length at most the number of samples. Longer requests divide by zero or fail (C66_too_long for the latter)."
  },
  {
   "property": "C67",
   "status": "partial",
   "theorems": [
    "C67_kernel",
    "C67_trunc",
    "C67_total",
    "C67_narrow_refuted"
   ],
   "note": "Proved for kernels of at least three points (int(sigma_range*sigma) > 0) in every mode and for full mode always. Refuted for fill = 0: 'same' and 'valid' return an empty array (C67_narrow_refuted). sigma is any non-zero real in the intended use (the kernel is total in Coq, division by zero giving 0); the cache is not modelled."
  },
  {
   "property": "C68",
   "status": "partial",
   "theorems": [
    "C68_exponent",
    "C68_value",
    "C68_mantissa_partial",
    "C68_mantissa_refuted"
   ],
   "note": "Value, exponent and the range [1,10] proved; rounding up can give 10.00 before the power of ten (C68_mantissa_refuted). Multiplication by the float power of ten is an argument of the model."
  },
  {
   "property": "C69",
   "status": "partial",
   "theorems": [
    "C69_defined",
    "C69_places_partial",
    "C69_places_refuted"
   ],
   "note": "Termination and the bounds on decimals proved; a carry of the leading nines can give one decimal more than the errors have (C69_places_refuted)."
  },
  {
   "property": "C70",
   "status": "partial",
   "theorems": [
    "C70_rectangular_partial",
    "C70_missing_refuted",
    "C70_bestfit_refuted",
    "C70_numformatter_refuted",
    "C70_body"
   ],
   "note": "C70_rectangular_partial needs every result to have the same number of labels and to show every parameter (or a single label). C70_missing_refuted: a missing parameter in a result with a best-fit column leaves the row one cell short. C70_bestfit_refuted: BestFit results raise TypeError. C70_numformatter_refuted: the numFormatter argument is stored in an attribute nobody reads."
  },
  {
   "property": "C71",
   "status": "partial",
   "theorems": [
    "C71_limits",
    "C71_defined",
    "C71_two_partial",
    "C71_kind",
    "C71_force_refuted",
    "C71_prior_refuted"
   ],
   "note": "C71_limits, C71_defined and C71_kind prove bounds and kind of each limit. C71_two_partial gives two-tail limits when the density is low at both ends; C71_force_refuted: force_twotail does not force two tails; C71_prior_refuted: one-tail limits occur without prior bound and whatever max_frac_twotail is."
  },
  {
   "property": "C72",
   "status": "partial",
   "theorems": [
    "C72_range",
    "C72_text_refuted",
    "C72_dist_refuted"
   ],
   "note": "Proved for all entries that state limits. False of the code for a text as entry (AttributeError) and a prior with only a distribution (UnboundLocalError), which is_parameter_with_range accepts. scipy's interval is a parameter, so loc/scale priors are not covered."
  },
  {
   "property": "C73",
   "status": "proved",
   "theorems": [
    "C73_entry",
    "C73_order",
    "C73_outputs",
    "C73_names"
   ],
   "note": ""
  },
  {
   "property": "C74",
   "status": "partial",
   "theorems": [
    "C74_default_partial",
    "C74_skip_refuted"
   ],
   "note": "False of the code: the dictionary of parameters is asked for the post block, so that the answer is 0 whatever was skipped (C74_skip_refuted). Proved: 0 if nothing is recorded and no parameter is called post."
  },
  {
   "property": "C75",
   "status": "partial",
   "theorems": [
    "C75_roundtrip_partial",
    "C75_long_name_refuted",
    "C75_no_label_refuted",
    "C75_fixed_refuted"
   ],
   "note": "Proved: a file as CosmoMC writes it is read back as written when names have less than 22 characters and labels are not blank (number and value formats are assumed to be read as written). Refuted (real defects): a name of 22 or more characters runs into the label, a missing label makes the file unreadable, and fixed parameters are marked as derived."
  },
  {
   "property": "C76",
   "status": "proved",
   "theorems": [
    "C76_probability",
    "C76_detailed_balance",
    "C76_stationary",
    "C76_step"
   ],
   "note": "Probability is the volume of the set of random numbers in the unit cube, when it is a box; randexp1 is -log of a uniform number. Stationarity is stated for finite sets of points."
  },
  {
   "property": "C77",
   "status": "proved",
   "theorems": [
    "C77_path_balance",
    "C77_lands"
   ],
   "note": "Pathwise detailed balance over the random numbers of the turns and the last decision, for given slow and fast moves; LogLike never exceeds LogZero."
  },
  {
   "property": "C78",
   "status": "partial",
   "theorems": [
    "C78_weights",
    "C78_steps",
    "C78_drag_count_refuted"
   ],
   "note": "Weights proved for all runs. FINDING C78_drag_count_refuted: a dragging step whose slow move has zero likelihood counts in the weight but not in num_sample, so with dragging the number of steps is only bounded from below."
  },
  {
   "property": "C79",
   "status": "partial",
   "theorems": [
    "C79_best_partial",
    "C79_best_refuted"
   ],
   "note": "FINDING C79_best_refuted: the point at which the chain stops is never compared, so MaxLike can miss the best point (used by minimize.f90). C79_best_partial: it is the best of the points left."
  },
  {
   "property": "C80",
   "status": "proved",
   "theorems": [
    "C80_thinning",
    "C80_file",
    "C80_restart"
   ],
   "note": "For a constant thinning factor, as used in a run; AddNewWeightedPoint without file I/O."
  },
  {
   "property": "C81",
   "status": "proved",
   "theorems": [
    "C81_partition",
    "C81_speed",
    "C81_kinds",
    "C81_counts",
    "C81_sizes"
   ],
   "note": "Partition into blocks, slow blocks first, counts and array sizes, for all setups."
  },
  {
   "property": "C82",
   "status": "partial",
   "theorems": [
    "C82_cuts_partial",
    "C82_breaks_partial",
    "C82_separate_refuted"
   ],
   "note": "False as stated: a break is set at the first parameter of a likelihood but blocks end at the break, so that this parameter goes into the block before (C82_separate_refuted, for all setups). Proved instead: blocks are cut exactly at the breaks."
  },
  {
   "property": "C83",
   "status": "proved",
   "theorems": [
    "C83_period",
    "C83_block"
   ],
   "note": "Over every period from a completed cycle, for all random orders; the start of a chain is such a state (pstart_between)."
  },
  {
   "property": "C84",
   "status": "proved",
   "theorems": [
    "C84_covariance",
    "C84_fast_only"
   ],
   "note": "For exact real numbers, with the defining property of the Cholesky factor as hypothesis; the distributions of rotations and step lengths are not modelled."
  },
  {
   "property": "C85",
   "status": "proved",
   "theorems": [
    "C85_sort",
    "C85_part",
    "C85_reals"
   ],
   "note": "For every comparison that is a total preorder (C85_reals: the comparison of numbers is one; not-a-number values are excluded)."
  },
  {
   "property": "C86",
   "status": "proved",
   "theorems": [
    "C86_delete",
    "C86_thin",
    "C86_thin_twice",
    "C86_unique"
   ],
   "note": "For all lists; freeing of memory is modelled as the list of freed items."
  },
  {
   "property": "C87",
   "status": "proved",
   "theorems": [
    "C87_quantile",
    "C87_counts",
    "C87_order",
    "C87_interval"
   ],
   "note": "For exact real numbers."
  },
  {
   "property": "C88",
   "status": "proved",
   "theorems": [
    "C88_samples",
    "C88_roundtrip",
    "C88_truncated",
    "C88_refused"
   ],
   "note": "Binary files are lists of typed items; sizes of MaxLikeParams and of the covariance matrix agree with the reading run."
  },
  {
   "property": "C89",
   "status": "partial",
   "theorems": [
    "C89_disk",
    "C89_restart_partial",
    "C89_restart_refuted"
   ],
   "note": "Holds for all crash points but one: FINDING, the old .chk is deleted before the new one is renamed; a crash in between makes the next run start new chains and empty the chain file (C89_restart_refuted)."
  },
  {
   "property": "C90",
   "status": "proved",
   "theorems": [
    "C90_ends",
    "C90_explored",
    "C90_samples"
   ],
   "note": "One chain; the end of burn-in of the other chains is in the model of messages."
  },
  {
   "property": "C91",
   "status": "proved",
   "theorems": [
    "C91_half",
    "C91_mean",
    "C91_total",
    "C91_covariance",
    "C91_below"
   ],
   "note": "Real arithmetic, chains that are not empty."
  },
  {
   "property": "C92",
   "status": "partial",
   "theorems": [
    "C92_stop_partial",
    "C92_two",
    "C92_agree",
    "C92_consecutive_refuted",
    "C92_restart_refuted",
    "C92_singular_refuted"
   ],
   "note": "C92_stop_partial gives the exact condition. FINDINGS: a check with a singular covariance does not reset the flag (C92_consecutive_refuted); flags saved in checkpoints of different chains can differ, then chains decide differently (C92_restart_refuted); with a diagonal initial covariance the proposal is learned from a singular matrix (C92_singular_refuted)."
  },
  {
   "property": "C93",
   "status": "proved",
   "theorems": [
    "C93_burn",
    "C93_messages",
    "C93_rounds",
    "C93_same"
   ],
   "note": "Rules of MPI (order of messages, receives, collectives) are part of the model; stopping is not modelled."
  },
  {
   "property": "C94",
   "status": "partial",
   "theorems": [
    "C94_live_partial",
    "C94_mixed_refuted"
   ],
   "note": "C94_live_partial holds if all chains are new or all restart. FINDING: each chain decides alone by its own .chk file; if some restart and some do not, no update is ever finished and every chain that begins one hangs (C94_mixed_refuted, for all such sets of chains)."
  },
  {
   "property": "C95",
   "status": "proved",
   "theorems": [
    "C95_values",
    "C95_written",
    "C95_continued",
    "C95_current",
    "C95_minimizer",
    "C95_bounds",
    "C95_priors"
   ],
   "note": "Configurations must be sound (LikeSpec.sound_config: dependent_params lists all parameters a likelihood uses, etc.). A chain continued from a file may write its first point with the stored likelihood (C95_continued)."
  },
  {
   "property": "C96",
   "status": "partial",
   "theorems": [
    "C96_sampler_partial",
    "C96_minimizer_partial",
    "C96_no_leak_partial",
    "C96_refine_refuted",
    "C96_first_refuted"
   ],
   "note": "Holds for the sampler and the minimizer's evaluations (C96_sampler_partial, C96_minimizer_partial; no loss after the first accepted move: C96_no_leak_partial). FINDINGS: in the MCMC refinement after minimization the second chain frees the best point's memory again if the first one moved without finding a better point (C96_refine_refuted); the first evaluation of a point loses the cell allocated by SetCurrentPoint (C96_first_refuted)."
  },
  {
   "property": "C97",
   "status": "proved",
   "theorems": [
    "C97_redone",
    "C97_impossible"
   ],
   "note": "Sums that happen to equal logZero exactly are excluded."
  },
  {
   "property": "C98",
   "status": "proved",
   "theorems": [
    "C98_weights",
    "C98_target",
    "C98_like_only",
    "C98_nochange"
   ],
   "note": "rows of a chain without NaN and with redo_thin off; the likelihood and the prior cuts are arbitrary functions of the point; exact reals"
  },
  {
   "property": "C99",
   "status": "partial",
   "theorems": [
    "C99_every_partial",
    "C99_restart_partial",
    "C99_start_refuted",
    "C99_stop_refuted"
   ],
   "note": "C99_every_partial: holds for text chains, for any value of thin_acc below k. C99_restart_partial: the same when the offset is found on the way. Refuted: thin_acc is never set to 0 at the start (C99_start_refuted); at the end of a .data file the weight of the last row, multiplied in place, is tested for being an integer and can stop the program (C99_stop_refuted)"
  },
  {
   "property": "C100",
   "status": "partial",
   "theorems": [
    "C100_common_partial",
    "C100_waits_refuted",
    "C100_single_refuted"
   ],
   "note": "C100_common_partial: if all chains have enough samples, or none has. Refuted: a chain with too few samples or without a file leaves all others waiting (C100_waits_refuted); without MPI the value for impossible points becomes the offset (C100_single_refuted)"
  },
  {
   "property": "C101",
   "status": "partial",
   "theorems": [
    "C101_part_partial",
    "C101_rows",
    "C101_nan_refuted",
    "C101_part_refuted"
   ],
   "note": "C101_rows: text chains and whole numbers of rows. C101_part_partial: a fraction of a .data file drops max(2, floor) rows. Refuted: never fewer than 2 (C101_part_refuted); a row with NaN in a text chain repeats the one before with an undefined point (C101_nan_refuted)"
  },
  {
   "property": "C102",
   "status": "partial",
   "theorems": [
    "C102_params_partial",
    "C102_likes",
    "C102_stops",
    "C102_derived_refuted"
   ],
   "note": "C102_params_partial: names in the file are among those of the parameters varied now. C102_likes and C102_stops hold in full. Refuted: a name that belongs to a derived or fixed parameter now is accepted, and the parameter varied instead silently keeps its central value (C102_derived_refuted)"
  },
  {
   "property": "C103",
   "status": "partial",
   "theorems": [
    "C103_add",
    "C103_value",
    "C103_stored",
    "C103_name_partial",
    "C103_name_refuted"
   ],
   "note": "C103_add, C103_value: redo_add in full. C103_name_partial: redo_like_name for names that exist. Refuted: an unknown name is ignored without an error (C103_name_refuted)"
  },
  {
   "property": "C104",
   "status": "partial",
   "theorems": [
    "C104_merge_partial",
    "C104_check",
    "C104_twice",
    "C104_early_refuted",
    "C104_ranges_refuted"
   ],
   "note": "proved when the second list has a new name, and for the check; refuted: without a new name the second list is not looked at, so kinds and ranges are lost"
  },
  {
   "property": "C105",
   "status": "partial",
   "theorems": [
    "C105_fortran_partial",
    "C105_from_python_partial",
    "C105_to_python_partial",
    "C105_comma_refuted"
   ],
   "note": "proved for names of plain characters up to 128 long and trimmed labels; refuted: names with commas or slashes are cut by list-directed input"
  },
  {
   "property": "C106",
   "status": "partial",
   "theorems": [
    "C106_columns_partial",
    "C106_theory_partial",
    "C106_order_refuted",
    "C106_shift_refuted",
    "C106_temperature_refuted"
   ],
   "note": "proved for likelihood files that list base parameters first and share no base parameter with derived ones; refuted: files in another order, base parameters that are derived elsewhere, and chi2_prior at a temperature other than 1"
  },
  {
   "property": "C107",
   "status": "partial",
   "theorems": [
    "C107_words_partial",
    "C107_number_partial",
    "C107_few",
    "C107_fast_refuted",
    "C107_unknown",
    "C107_range_refuted",
    "C107_surplus_refuted",
    "C107_skip_refuted",
    "C107_empty_refuted"
   ],
   "note": "proved for plain words; refuted: numbers are not checked, surplus words are passed over, an unknown name can leave an element unset, an empty text leaves -1"
  },
  {
   "property": "C108",
   "status": "partial",
   "theorems": [
    "C108_names_partial",
    "C108_matrix",
    "C108_definite_partial",
    "C108_overflow_refuted",
    "C108_transpose_refuted",
    "C108_plain",
    "C108_no_file"
   ],
   "note": "Proved when no two names of the file are the same and none of them is a number: elements by name, widths of parameters that are missing, and semidefinite and definite matrices. Refuted: more names than the array has room for overwrite memory; with names the transpose of the file is used, without names not."
  },
  {
   "property": "C109",
   "status": "proved",
   "theorems": [
    "C109_ranges",
    "C109_used",
    "C109_start",
    "C109_no_end_refuted"
   ],
   "note": "For all settings and lists of random numbers. Also shown: a negative width with the centre at the upper limit never ends."
  },
  {
   "property": "C110",
   "status": "partial",
   "theorems": [
    "C110_grid",
    "C110_fine_partial",
    "C110_index",
    "C110_close_refuted",
    "C110_fine_refuted",
    "C110_order_refuted"
   ],
   "note": "The grid is correct in order, exact redshifts and range. Steps are no larger than asked for only without exact redshifts (C110_fine_partial). Found: an exact redshift takes the place of the nearest grid point so steps can be larger (C110_fine_refuted); redshifts closer than 1e-4 share one number (C110_close_refuted); whether the program stops depends on the order of likelihoods (C110_order_refuted)."
  },
  {
   "property": "C111",
   "status": "partial",
   "theorems": [
    "C111_settings",
    "C111_sequence",
    "C111_power_partial",
    "C111_islog_refuted",
    "C111_redshifts_refuted",
    "C111_array",
    "C111_at_l",
    "C111_extension"
   ],
   "note": "Everything but the meaning of cross spectra comes back. Found: the file does not say whether a spectrum holds logarithms, so the cross power of matter and Weyl potential is exponentiated after reading (C111_islog_refuted); redshifts of different number pass the comparison (C111_redshifts_refuted)."
  },
  {
   "property": "C112",
   "status": "partial",
   "theorems": [
    "C112_cache",
    "C112_theta",
    "C112_ends",
    "C112_prior",
    "C112_level_refuted"
   ],
   "note": "Proved: the cache changes nothing (theta and the redshift of reionization may depend on the parameters that the cache compares), termination and accuracy for theta with bounded slopes, limits. Refuted (C112_level_refuted): the search ends when two successive values of theta are within 1e-7, so for a theta that is nearly level in one place the result can be far from the theta asked for. Reals instead of floats; theta(H0) is an argument."
  },
  {
   "property": "C113",
   "status": "partial",
   "theorems": [
    "C113_theta",
    "C113_astro",
    "C113_background",
    "C113_agree_partial",
    "C113_backgrounds_agree",
    "C113_fewer_refuted",
    "C113_kept_refuted"
   ],
   "note": "Proved: closure, use of every given parameter, equality of the astro and background densities, and equality of theta and astro for non-degenerate neutrinos or nnu >= 3.046 without sterile neutrinos (C113_agree_partial). Refuted: with fewer degenerate neutrinos the theta parameterization has another neutrino density (C113_fewer_refuted); the background parameterization leaves fields unset (C113_kept_refuted)."
  },
  {
   "property": "C114",
   "status": "partial",
   "theorems": [
    "C114_count",
    "C114_theta",
    "C114_astro",
    "C114_background",
    "C114_inputs",
    "C114_short_refuted"
   ],
   "note": "Proved for all combinations of the four settings: number, order and value of each derived parameter by its name, and the use of each base parameter of the theta parameterization. Refuted (C114_short_refuted): with a temperature spectrum that ends below L=2000 the values are read behind its end."
  },
  {
   "property": "C115",
   "status": "partial",
   "theorems": [
    "C115_scalar",
    "C115_tensor_partial",
    "C115_slope_refuted"
   ],
   "note": "Proved: scalar amplitude, slopes, running, r, pivots and stops; the numbers of tensor tilt and running (C115_tensor_partial). Refuted (C115_slope_refuted): the tensor tilt is assigned to InitPower%At and %nt is never set; CAMB itself is not in the repository, so the meaning of At is from CAMB's TInitialPowerLaw."
  },
  {
   "property": "C116",
   "status": "partial",
   "theorems": [
    "C116_enough",
    "C116_exact",
    "C116_stop",
    "C116_order",
    "C116_lmax",
    "C116_none_refuted"
   ],
   "note": "All parts proved for runs with C_l. Refuted (C116_none_refuted): without CMB likelihoods lmax is the maximum of an empty array and InitCAMBParams computes twice this number plus 300, outside the range of integers."
  },
  {
   "property": "C117",
   "status": "partial",
   "theorems": [
    "C117_value",
    "C117_history",
    "C117_joined_partial",
    "C117_kept_refuted",
    "C117_phi",
    "C117_cross_refuted",
    "C117_deflection",
    "C117_saved_refuted",
    "C117_B_refuted"
   ],
   "note": "Proved: values below lmax_computed_cl, independence of history when no continuation is needed, potential and deflection angle, joining for the first point (C117_joined_partial). Refuted: highL_norm is initialized in its declaration and thus saved, so that later points do not join (C117_kept_refuted, C117_saved_refuted); the phi-T array gets one value for all multipoles (C117_cross_refuted); unlensed B gets the lensed template (C117_B_refuted). Reals instead of floats."
  },
  {
   "property": "C118",
   "status": "partial",
   "theorems": [
    "C118_interpolated_partial",
    "C118_between",
    "C118_outside",
    "C118_last_refuted",
    "C118_first_refuted",
    "C118_read",
    "C118_peak",
    "C118_nonneg",
    "C118_short",
    "C118_alpha",
    "C118_mgs_partial",
    "C118_mgs_outside",
    "C118_mgs_refuted",
    "C118_mgs_alpha"
   ],
   "note": "All parts proved, but false at the first points of the axes, where the arrays are read at index 0 (C118_first_refuted), and between the last two points of each axis, which are excluded whatever their probability (C118_last_refuted). The likelihood of MGS is a step function without interpolation (C118_mgs_refuted); because 0.001 is a constant of single precision its table is never read out of bounds (C118_mgs_partial). Both kinds ignore rs_rescale."
  },
  {
   "property": "C119",
   "status": "partial",
   "theorems": [
    "C119_meaning",
    "C119_growth",
    "C119_value",
    "C119_best",
    "C119_errors",
    "C119_ruler",
    "C119_fixed",
    "C119_dilation",
    "C119_stop",
    "C119_file",
    "C119_columns",
    "C119_matrix",
    "C119_low",
    "C119_missing",
    "C119_unset_refuted",
    "C119_type_refuted",
    "C119_short_refuted"
   ],
   "note": "Proved, except that malformed data do not always stop: with zeff for several points without covariance the errors are used unset (C119_unset_refuted), with zeff without measurement_type the type is (C119_type_refuted), and a short list of redshifts is taken as one (C119_short_refuted). f sigma_8 and distances are arguments; for a matrix that is not symmetric the upper triangle counts (C119_value)."
  },
  {
   "property": "C120",
   "status": "partial",
   "theorems": [
    "C120_one",
    "C120_two",
    "C120_shift",
    "C120_unit",
    "C120_shift_two",
    "C120_failed",
    "C120_sets_partial",
    "C120_sets_refuted",
    "C120_marge",
    "C120_used",
    "C120_grid",
    "C120_points"
   ],
   "note": "Proved, except that with two magnitudes a sample that is wholly above the cut gives a division by 0, since has_A1 is set and never unset (C120_sets_refuted); a sample wholly below falls back to one magnitude (C120_sets_partial). The determinant of the covariance itself is not part of the likelihood of the code, for constant alpha and beta it is a constant. If all points of the grid are excluded the result is Undef here (largest number minus log 0 in the code)."
  },
  {
   "property": "C121",
   "status": "partial",
   "theorems": [
    "C121_cov_partial",
    "C121_missing",
    "C121_cov_refuted",
    "C121_variance",
    "C121_pre",
    "C121_dataset_refuted",
    "C121_absdist",
    "C121_distance",
    "C121_known",
    "C121_read",
    "C121_read_short",
    "C121_read_refuted"
   ],
   "note": "Proved for the formats with third variable and for covariance files that are symmetric matrices. A file for magnitude and stretch (or the other mixed ones) that is not symmetric is counted twice in one order (C121_cov_refuted). A number of the data set outside 0..9 is reported and then read out of bounds (C121_dataset_refuted). In files without third variable a line that was read falls through to the next format, so each supernova is a copy of the first (C121_read_refuted). Positions after a failed READ are those after the record of the error."
  },
  {
   "property": "C122",
   "status": "partial",
   "theorems": [
    "C122_used",
    "C122_numbering",
    "C122_pair_partial",
    "C122_pair_refuted",
    "C122_symmetric",
    "C122_column",
    "C122_none",
    "C122_all",
    "C122_matrix",
    "C122_elements",
    "C122_order",
    "C122_duplicate_refuted",
    "C122_file_partial",
    "C122_rows_refuted",
    "C122_short",
    "C122_select"
   ],
   "note": "Proved except: a map whose name contains x can not be found in pairs (C122_pair_refuted), the check for duplicates in the order is dead (C122_duplicate_refuted), rows missing in a file are read as 0 and descending rows stop (C122_rows_refuted)."
  },
  {
   "property": "C123",
   "status": "partial",
   "theorems": [
    "C123_window_partial",
    "C123_window_refuted",
    "C123_read",
    "C123_correction",
    "C123_binned",
    "C123_columns",
    "C123_used",
    "C123_count",
    "C123_cov_bins",
    "C123_cov_multipoles",
    "C123_vector",
    "C123_scale_partial",
    "C123_scale_first",
    "C123_scale_refuted",
    "C123_lmax_partial",
    "C123_lmax_refuted"
   ],
   "note": "Proved except: windows for maps that are not required read out of bounds (C123_window_refuted), covmat_scale is saved between data sets because it is initialized at its declaration (C123_scale_refuted), spectra of T or E with the lensing potential are never requested (C123_lmax_refuted)."
  },
  {
   "property": "C124",
   "status": "partial",
   "theorems": [
    "C124_fields",
    "C124_symmetric",
    "C124_same",
    "C124_aberration_partial",
    "C124_straight_partial",
    "C124_two_refuted",
    "C124_identity",
    "C124_lensing",
    "C124_calibration",
    "C124_order",
    "C124_smica",
    "C124_pivot",
    "C124_power",
    "C124_derived",
    "C124_derived_refuted"
   ],
   "note": "Proved for ranges of three or more multipoles; with two the value of C_l takes the place of its derivative (C124_two_refuted). The derived parameter is out of bounds if 2000 is not in the range and 0 if the first map is not temperature (C124_derived_refuted)."
  },
  {
   "property": "C125",
   "status": "proved",
   "theorems": [
    "C125_transform",
    "C125_g",
    "C125_zero",
    "C125_trace",
    "C125_exact",
    "C125_exact_best",
    "C125_full_sky",
    "C125_single",
    "C125_gaussian",
    "C125_hl_best",
    "C125_noise",
    "C125_fiducial",
    "C125_binned",
    "C125_prior",
    "C125_no_prior"
   ],
   "note": "Diagonalization and Cholesky decomposition are arguments that satisfy their specification for symmetric (positive) matrices. For more than one map the equality of the two likelihoods is for every function that is multiplicative and has the value of the determinant for triangular matrices (shown to exist for 1 and 2 maps, C125_det_2); that the exact chi-squared is zero just at the data does not need it."
  },
  {
   "property": "C126",
   "status": "partial",
   "theorems": [
    "C126_used",
    "C126_count",
    "C126_pairs",
    "C126_first",
    "C126_data_partial",
    "C126_vector",
    "C126_twice_refuted",
    "C126_theta",
    "C126_bins_refuted",
    "C126_selection",
    "C126_unselected",
    "C126_rounded_refuted",
    "C126_size",
    "C126_load",
    "C126_like",
    "C126_factor_refuted",
    "C126_file_partial",
    "C126_file_refuted"
   ],
   "note": "C126_data_partial: the data vector holds the values of the selected measurements if no key is given twice (C126_twice_refuted); bins outside of the range are not checked (C126_bins_refuted); limits are rounded to single precision (C126_rounded_refuted); ah_factor is read and never used (C126_factor_refuted); columns of the theory file are right if the types are listed as 1,2,... (C126_file_partial, C126_file_refuted). The rest holds."
  },
  {
   "property": "C127",
   "status": "partial",
   "theorems": [
    "C127_params",
    "C127_redshifts",
    "C127_steps",
    "C127_shift",
    "C127_bias",
    "C127_kernel",
    "C127_behind",
    "C127_alignment",
    "C127_pivot",
    "C127_limber",
    "C127_symmetric",
    "C127_weyl",
    "C127_ranges",
    "C127_transform",
    "C127_constant",
    "C127_corr",
    "C127_xim_partial",
    "C127_xim_refuted",
    "C127_multipoles_partial",
    "C127_multipoles_refuted"
   ],
   "note": "C127_xim_partial: xim is the transform of xip if xip is used and has the pair; otherwise its theory is zero (C127_xim_refuted). C127_multipoles_partial: multipoles increase for acc from 1/24 to 4; above 4 the value 100 is there twice (C127_multipoles_refuted). The rest holds."
  },
  {
   "property": "C128",
   "status": "partial",
   "theorems": [
    "C128_amplitude",
    "C128_value",
    "C128_factor",
    "C128_errors",
    "C128_flat",
    "C128_flat_degenerate",
    "C128_normal",
    "C128_step",
    "C128_normal_between",
    "C128_fixed",
    "C128_fiducial",
    "C128_scaling",
    "C128_stops",
    "C128_missing",
    "C128_uses",
    "C128_rows_partial",
    "C128_last_row",
    "C128_rows_refuted",
    "C128_parts_partial"
   ],
   "note": "C128_rows_partial, C128_parts_partial: measurements are right if all rows can be read; a row before the last that cannot be read is accepted as measurement 0 (C128_rows_refuted). The rest holds."
  },
  {
   "property": "C129",
   "status": "partial",
   "theorems": [
    "C129_profile_partial",
    "C129_factor",
    "C129_mpk",
    "C129_flat",
    "C129_normal_partial",
    "C129_normal_refuted",
    "C129_single_partial",
    "C129_single_refuted",
    "C129_measurements_partial",
    "C129_measurements_refuted",
    "C129_matrices_partial",
    "C129_matrices_refuted",
    "C129_matrices_wrong",
    "C129_zbin",
    "C129_zbin_stops",
    "C129_gigglez"
   ],
   "note": "C129_profile_partial: exact arithmetic; normV is of single precision, which gives an error of at most e/(1-e) of the explained chi squared (C129_single_partial) and may make it negative (C129_single_refuted). C129_normal_partial: with a normal prior on Q the result is not below the right one, it is larger as normV is not reset (C129_normal_refuted). C129_measurements_partial: blocks are right if there are 50 rows or all regions are used (C129_measurements_refuted). C129_matrices_partial: matrices of complete files; short files are accepted (C129_matrices_refuted). The rest holds."
  },
  {
   "property": "C130",
   "status": "partial",
   "theorems": [
    "C130_pairs",
    "C130_columns",
    "C130_order",
    "C130_maps_partial",
    "C130_word_refuted",
    "C130_select_partial",
    "C130_view",
    "C130_view_refuted",
    "C130_file_partial",
    "C130_reach",
    "C130_row_refuted",
    "C130_windows_partial",
    "C130_one_column_refuted",
    "C130_one_multipole_refuted",
    "C130_binned_partial",
    "C130_last_refuted",
    "C130_correction_refuted",
    "C130_required_refuted",
    "C130_used",
    "C130_covariance_partial",
    "C130_unbinned_refuted"
   ],
   "note": "C130_maps_partial, C130_select_partial, C130_file_partial, C130_windows_partial, C130_binned_partial and C130_covariance_partial need words of one field, maps_required that are not changed through the view of the maps, files and windows of more than one row or column and windows that are complete, and bins; without them the programs differ: C130_word_refuted, C130_view_refuted, C130_row_refuted, C130_one_column_refuted, C130_one_multipole_refuted, C130_last_refuted, C130_correction_refuted, C130_required_refuted, C130_unbinned_refuted. The rest holds."
  },
  {
   "property": "C131",
   "status": "partial",
   "theorems": [
    "C131_transform",
    "C131_exact",
    "C131_chisq_partial",
    "C131_loglike",
    "C131_parameter_refuted",
    "C131_noise_partial",
    "C131_noise_refuted",
    "C131_binned_refuted",
    "C131_theory_partial",
    "C131_short",
    "C131_short_refuted",
    "C131_adapt"
   ],
   "note": "C131_chisq_partial and C131_noise_partial: Gaussian data without noise and exact likelihoods that are not binned; C131_theory_partial: arrays that reach the last multipole. Otherwise the programs differ: C131_noise_refuted, C131_binned_refuted, C131_parameter_refuted, C131_short_refuted. The rest holds."
  },
  {
   "property": "C132",
   "status": "partial",
   "theorems": [
    "C132_load_partial",
    "C132_add_partial",
    "C132_missing",
    "C132_rows_refuted"
   ],
   "note": "C132_load_partial and C132_add_partial: for rows of consecutive multipoles; others are not always refused (C132_rows_refuted), missing ones are (C132_missing)."
  },
  {
   "property": "C133",
   "status": "proved",
   "theorems": [
    "C133_smooth",
    "C133_width",
    "C133_kernel",
    "C133_density",
    "C133_empty",
    "C133_order",
    "C133_normed",
    "C133_unbiased",
    "C133_plain",
    "C133_free",
    "C133_flat",
    "C133_scale",
    "C133_mirror"
   ],
   "note": "C133_width and C133_kernel give the width and the kernel; C133_density is definedness, range and support for every order, number of multiplicative corrections and limits; C133_flat uniform samples; C133_normed, C133_unbiased, C133_plain and C133_free the corrections; C133_scale, C133_mirror, C133_empty, C133_order the rest. Arithmetic is over the reals."
  },
  {
   "property": "C134",
   "status": "partial",
   "theorems": [
    "C134_inverse",
    "C134_singular",
    "C134_kernel",
    "C134_density_partial",
    "C134_empty_partial",
    "C134_plain",
    "C134_normed_partial",
    "C134_unbiased_partial",
    "C134_order",
    "C134_narrow_refuted",
    "C134_narrow_width",
    "C134_flat_partial",
    "C134_inside",
    "C134_scale_partial",
    "C134_scale_refuted",
    "C134_transpose",
    "C134_mirror",
    "C134_flat"
   ],
   "note": "False as stated: with a kernel of one bin (rx and ry at most 1/5 of a bin, C134_narrow_width) the mask [-0:] is zeroed entirely and the multiplicative correction divides by 0 (C134_narrow_refuted), so C134_density_partial and C134_empty_partial need a kernel of at least three bins; bins below 1e-8 of the maximum keep the raw histogram in the multiplicative correction, so the unit of the weights matters for them (C134_scale_refuted; C134_scale_partial is what holds). C134_normed_partial and C134_unbiased_partial hold at bins above the cut 1e-8; C134_flat is for kernels without correlation no wider than the grid, C134_flat_partial for any kernel with more than 1e-4 of its weight inside. C134_inverse, C134_singular, C134_kernel, C134_plain, C134_order, C134_inside, C134_transpose and C134_mirror hold in full."
  },
  {
   "property": "C135",
   "status": "partial",
   "theorems": [
    "C135_autocorrelation",
    "C135_constant",
    "C135_default_refuted",
    "C135_length",
    "C135_effective",
    "C135_unit",
    "C135_affine",
    "C135_weights",
    "C135_slow_refuted",
    "C135_one_move_refuted",
    "C135_pooled",
    "C135_pooled_one",
    "C135_longest"
   ],
   "note": "False as stated: when all autocorrelations are above the cut np.argmin returns 0 and the length is only the value at distance 0 (C135_slow_refuted), so a chain of 2h rows that moves once has 2h effective samples (C135_one_move_refuted); without a largest distance the autocorrelation ends at the number of parameters instead of the number of rows (C135_default_refuted). The other parts hold: C135_autocorrelation, C135_constant, C135_length, C135_effective, C135_unit, C135_affine, C135_weights, C135_pooled, C135_pooled_one, C135_longest."
  },
  {
   "property": "C136",
   "status": "proved",
   "theorems": [
    "C136_worst",
    "C136_zero",
    "C136_linear",
    "C136_one",
    "C136_mean_var",
    "C136_single"
   ],
   "note": "C136_worst holds for any numpy.linalg.eigh and eigvalsh that return eigenvalues with orthonormal eigenvectors of symmetric matrices; weights are not negative with a positive sum for each chain. C136_mean_var is for the square of the number that is printed."
  },
  {
   "property": "C137",
   "status": "partial",
   "theorems": [
    "C137_counts",
    "C137_gain_markov",
    "C137_gain_indep",
    "C137_gain_positive",
    "C137_burn",
    "C137_burn_defined",
    "C137_report",
    "C137_ends",
    "C137_independent_refuted"
   ],
   "note": "False as stated: when a limit is crossed independently of the previous sample (both frequencies add to 1) math.log(0) is caught and the chain is reported as failed (C137_independent_refuted with C137_independent_ex; the frequencies for which the number of steps is defined are in C137_burn_defined). All other parts hold: C137_counts, C137_gain_markov, C137_gain_indep, C137_gain_positive, C137_burn, C137_report, C137_ends. Weights are natural numbers with one that is positive; rows kept by thinning include the extra first row of C16."
  },
  {
   "property": "C138",
   "status": "partial",
   "theorems": [
    "C138_best",
    "C138_means",
    "C138_order",
    "C138_complexity",
    "C138_shift",
    "C138_scale",
    "C138_region",
    "C138_limits",
    "C138_defined",
    "C138_content_refuted",
    "C138_error_refuted"
   ],
   "note": "False as stated in two parts: the region for a fraction always holds less than that fraction, since searchsorted counts the samples before the one that completes it (C138_content_refuted; C138_region gives what it holds), and when the best sample alone weighs the fraction the region is empty and np.min raises ValueError (C138_error_refuted; C138_defined says exactly when statistics exist). All other parts hold: C138_best, C138_means, C138_order, C138_complexity, C138_shift, C138_scale, C138_region, C138_limits."
  },
  {
   "property": "C139",
   "status": "partial",
   "theorems": [
    "C139_correlations",
    "C139_terms",
    "C139_unit",
    "C139_components",
    "C139_tightest",
    "C139_conditional",
    "C139_names",
    "C139_default",
    "C139_default_refuted",
    "C139_missing_refuted",
    "C139_conditional_refuted"
   ],
   "note": "False as stated in three parts: by default no logarithm is used for parameters that are always negative, or whose largest value exceeds eleven times the smallest, and one that is always zero fails (C139_default_refuted; C139_default gives the exact rule); a name that is not known shifts the transformations of the parameters after it (C139_missing_refuted); the error printed with parameters held fixed is the one without them, which is larger (C139_conditional_refuted, C139_conditional_ex). All other parts hold: C139_correlations, C139_terms, C139_unit, C139_components, C139_tightest, C139_conditional, C139_names."
  },
  {
   "property": "C140",
   "status": "partial",
   "theorems": [
    "C140_band",
    "C140_scaling",
    "C140_single",
    "C140_pivot",
    "C140_units",
    "C140_ends_refuted",
    "C140_decorrelation",
    "C140_correlation",
    "C140_center",
    "C140_added",
    "C140_positive",
    "C140_positive_refuted"
   ],
   "note": "False as stated in two parts: the first and last frequency of a band are counted with twice the weight of the trapezoidal rule, so a flat band seems wider than it is (C140_ends_refuted, C140_ends_ex; C140_scaling holds with this sum); if dust and synchrotron radiation are correlated and have lost correlation between frequencies, which the program says it does not treat, the power of combinations of maps can be negative (C140_positive_refuted; C140_positive for all other cases). All other parts hold: C140_band, C140_scaling, C140_single, C140_pivot, C140_units, C140_decorrelation, C140_correlation, C140_center, C140_added."
  },
  {
   "property": "C141",
   "status": "partial",
   "theorems": [
    "C141_hubble",
    "C141_hubble_settings",
    "C141_helium",
    "C141_measurements",
    "C141_gaussian",
    "C141_ratios",
    "C141_norm_refuted",
    "C141_table_refuted",
    "C141_error_table"
   ],
   "note": "False as stated in two parts: with another table and no effective error the values come from that table but the errors still from the standard one, because line 85 names the table of values once more (C141_table_refuted, C141_error_table); if errors come from a table they change between models but the normalization is left out (C141_norm_refuted; C141_ratios for constant errors). All other parts hold: C141_hubble, C141_hubble_settings, C141_helium, C141_measurements, C141_gaussian."
  },
  {
   "property": "C142",
   "status": "partial",
   "theorems": [
    "C142_selected",
    "C142_data",
    "C142_lmax",
    "C142_loglike",
    "C142_marginal",
    "C142_covariance",
    "C142_empty_refuted",
    "C142_lmax_refuted",
    "C142_release",
    "C142_template",
    "C142_wmap",
    "C142_wmap_refuted"
   ],
   "note": "False as stated in three parts: a range without any bin centre reads an array before its start (C142_empty_refuted); a named spectrum without bins in the range asks for a highest multipole of -2147483648 (C142_lmax_refuted); WMAP without a template, or when its likelihood reports a failure, has no defined result (C142_wmap_refuted). All other parts hold: C142_selected, C142_data, C142_lmax, C142_loglike, C142_marginal, C142_covariance, C142_release, C142_template, C142_wmap."
  },
  {
   "property": "C143",
   "status": "partial",
   "theorems": [
    "C143_bounds",
    "C143_equal",
    "C143_units",
    "C143_rows_refuted",
    "C143_direct",
    "C143_half_refuted",
    "C143_defined",
    "C143_few_refuted",
    "C143_bounds2",
    "C143_bandwidth",
    "C143_raises"
   ],
   "note": "False as stated in three parts: with 2 to 9 rows the array of correlations has no element 1 (C143_few_refuted; from 20 rows on always defined: C143_defined); for distances summed one by one the correlation at distance 3 counts half, so the number is larger than that of the sum in the comment (C143_direct, C143_half_refuted); without a given largest distance it is taken from a correlation length in rows, which goes with the square of the unit of weights (C143_rows_refuted). All other parts hold: C143_bounds, C143_bounds2, C143_equal, C143_units (largest distance given), C143_bandwidth, C143_raises. Sums in steps of several rows are not compared with the direct sum."
  },
  {
   "property": "C144",
   "status": "partial",
   "theorems": [
    "C144_split",
    "C144_split_refuted",
    "C144_split_few_refuted",
    "C144_steps",
    "C144_steps_defined",
    "C144_steps_refuted"
   ],
   "note": "False as stated in two parts: a part of the split without samples raises an error (C144_split_refuted: weights, C144_split_few_refuted: more parts than rows), and with correlation thinning 1 a chain not longer than the largest distance gives 0/0 (C144_steps_refuted). C144_split, C144_steps and C144_steps_defined cover the rest. The squares of the printed split numbers are modelled and the rounding of int(5*(indep_thin/30)) is not."
  },
  {
   "property": "C145",
   "status": "partial",
   "theorems": [
    "C145_worst",
    "C145_prob",
    "C145_prob_points",
    "C145_prob_range",
    "C145_limits",
    "C145_limits_defined",
    "C145_limits_refuted",
    "C145_window",
    "C145_boundary",
    "C145_boundary_point_refuted"
   ],
   "note": "False as stated in two parts: a limit at the end of the range is the density there instead of the position (C145_limits_refuted), and a window of one point divides by zero (C145_boundary_point_refuted). C145_worst, C145_prob, C145_prob_points, C145_prob_range, C145_limits, C145_limits_defined, C145_window and C145_boundary prove the rest. That the loop of Limits ends is not claimed."
  },
  {
   "property": "C146",
   "status": "partial",
   "theorems": [
    "C146_weights",
    "C146_total_refuted",
    "C146_total_1d_refuted",
    "C146_conditional",
    "C146_conditional_one",
    "C146_conditional_weights_refuted",
    "C146_conditional_corr_refuted",
    "C146_compose",
    "C146_marged",
    "C146_pdf2",
    "C146_ranges",
    "C146_lower_refuted",
    "C146_density_refuted",
    "C146_sim",
    "C146_sim_none_refuted"
   ],
   "note": "False as stated in several parts. Line 46 pairs the elements of the total mean with the components, so the total covariance is wrong (C146_total_refuted, C146_total_1d_refuted). conditionalMixture ignores the weights of the components (C146_conditional_weights_refuted) and uses the conditional variance of the fixed parameter in place of the marginal one (C146_conditional_corr_refuted). getLower returns the upper limit (C146_lower_refuted). density1D does not pass no_limit_marge on (C146_density_refuted). Drawing no samples raises (C146_sim_none_refuted). C146_weights, C146_conditional, C146_conditional_one (one component), C146_compose, C146_marged, C146_pdf2, C146_ranges and C146_sim prove the rest. That drawing ends, and that a marginal density is an integral, are not claimed."
  },
  {
   "property": "C147",
   "status": "partial",
   "theorems": [
    "C147_fixed_point",
    "C147_fixed_point_flat",
    "C147_binned",
    "C147_bins",
    "C147_bins_free",
    "C147_bins_refuted",
    "C147_func2d",
    "C147_fixed_2D",
    "C147_diag",
    "C147_get_hdiag",
    "C147_amise",
    "C147_amise0",
    "C147_choose",
    "C147_choose_nan",
    "C147_shear",
    "C147_derotate",
    "C147_t_star",
    "C147_t_star_failed",
    "C147_sheared",
    "C147_direct",
    "C147_high",
    "C147_failed",
    "C147_order",
    "C147_reflect_refuted",
    "C147_setting_refuted",
    "C147_isj",
    "C147_func2d_time",
    "C147_fixed_2D_time"
   ],
   "note": "False as stated in three parts: equal samples have a range of zero (C147_bins_refuted); with limits on both parameters the test of line 1283 is on the correlation and not on its absolute value, so that reflecting a parameter does not reflect the kernel (C147_reflect_refuted); use_2D_Neff=False by default, so that the setting use_effective_samples_2D is never used (C147_setting_refuted). The other theorems C147_* prove the rest. That the solvers find a zero, and the estimates of odd order (func2d_odd), are not claimed beyond C147_choose, which holds for all values of them."
  },
  {
   "property": "C148",
   "status": "partial",
   "theorems": [
    "C148_cov",
    "C148_variance",
    "C148_same",
    "C148_mag_only",
    "C148_cache",
    "C148_new",
    "C148_cache_refuted",
    "C148_failed_refuted",
    "C148_unset_refuted",
    "C148_grid",
    "C148_marge",
    "C148_sets",
    "C148_precompute",
    "C148_read",
    "C148_comment_refuted",
    "C148_name_refuted",
    "C148_length",
    "C148_blank_refuted"
   ],
   "note": "False as stated in six parts. np.isclose of alpha and beta gives the inverse of a nearby point (C148_cache_refuted; C148_cache bounds how near). _last_alpha and _last_beta are set before the inversion, so that after a LinAlgError the same point has the inverse of an earlier point (C148_failed_refuted). Marginalization without precomputed inverses and with the covariance of magnitudes only has no invcov: AttributeError (C148_unset_refuted). A later line with '#' sets all arrays to zero (C148_comment_refuted). An empty line makes the arrays longer than the number of supernovae (C148_blank_refuted). A column 'name' replaces the name of the data set (C148_name_refuted). The other theorems C148_* prove the rest; C148_same is for finite values (an error of one program is an error of the other)."
  },
  {
   "property": "C149",
   "status": "partial",
   "theorems": [
    "C149_beam",
    "C149_beam_exists",
    "C149_noise",
    "C149_variance",
    "C149_both",
    "C149_header",
    "C149_key",
    "C149_read",
    "C149_fields",
    "C149_fields_refuted",
    "C149_lensing_only_refuted",
    "C149_array_refuted",
    "C149_zero_refuted",
    "C149_zero_variance"
   ],
   "note": "False as stated in four parts. 'TT' or 'TE' in cols is always true, so T and E are used for files without them (C149_fields_refuted; B and P follow the file: C149_fields). Without CMB noise the loop multiplies by NoiseVar = None: lensing alone always raises TypeError (C149_lensing_only_refuted). The truth value of a numpy array with more than one number raises ValueError (C149_array_refuted; lists work). noise_muK_arcmin_T = 0 is taken for no noise given and always raises (C149_zero_refuted; a variance of zero works: C149_zero_variance). The rest is proved for all arguments; C149_read is for the fields T, E, B (or the first of them) without a lensing column and at least two multipoles."
  },
  {
   "property": "C150",
   "status": "partial",
   "theorems": [
    "C150_tags",
    "C150_tags_once",
    "C150_tags_stop",
    "C150_settings",
    "C150_apart",
    "C150_named",
    "C150_blank_refuted",
    "C150_conflicts",
    "C150_reported"
   ],
   "note": "False for a tag with a blank at its end: name[a ] gives the tag 'a ', but its settings are looked up with trim(tag), so that name[a ,setting] is not found (C150_blank_refuted). Proved for all settings with tags that do not end with a blank; names of settings have no brackets and commas and no blank at the end, as all names in the code."
  },
  {
   "property": "C151",
   "status": "partial",
   "theorems": [
    "C151_rq",
    "C151_order",
    "C151_rq_symmetric",
    "C151_products",
    "C151_coadd",
    "C151_least",
    "C151_unused",
    "C151_cov",
    "C151_rows_refuted",
    "C151_shape_refuted"
   ],
   "note": "False in one part: the inverse has rows for the spectra that are in the data only, but its first rows are taken for the first spectrum; if one of these is in no data the rows are those of other multipoles or of the next spectrum (C151_rows_refuted), or the shapes do not agree (C151_shape_refuted). The rest is proved for all inputs; Jt is not negative (its elements are 0 and 1)."
  },
  {
   "property": "C152",
   "status": "partial",
   "theorems": [
    "C152_mean",
    "C152_bounds",
    "C152_centre",
    "C152_shift_refuted",
    "C152_asymmetric_refuted",
    "C152_short_refuted",
    "C152_short_cov_refuted",
    "C152_cov",
    "C152_cov_symmetric",
    "C152_cov_positive"
   ],
   "note": "False in two parts: a window of even length, as the default 5*40, is centred half an element before each element (C152_shift_refuted, C152_asymmetric_refuted), and data shorter than the window give a result of the length of the window (C152_short_refuted), which stops the smoothing of a covariance (C152_short_cov_refuted). The rest is proved for all inputs; odd windows are centred (C152_centre)."
  },
  {
   "property": "C153",
   "status": "partial",
   "theorems": [
    "C153_like",
    "C153_zero",
    "C153_nonneg",
    "C153_scale",
    "C153_free",
    "C153_marginalized_refuted",
    "C153_file",
    "C153_default_refuted"
   ],
   "note": "False in two parts: nothing in the code marginalizes over H0, so that the likelihood depends on H0 for each inverse covariance that gives weight to the mean of the data (C153_marginalized_refuted; C153_scale is the exact change, and C153_free says that it is zero if the rows of the matrix sum to zero); without a setting the file without systematic errors is read (C153_default_refuted). The rest is proved for all inputs."
  },
  {
   "property": "C154",
   "status": "partial",
   "theorems": [
    "C154_weights",
    "C154_stop",
    "C154_read",
    "C154_density",
    "C154_fixed_refuted"
   ],
   "note": "False in one part: a combination of fixed parameters only adds its number although priors of fixed parameters are not included (C154_fixed_refuted). The rest is proved for all inputs; the weights are those of the settings if no parameter is named twice."
  }
 ]
}
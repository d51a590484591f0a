{
 "claims": [
  {
   "property": "C01",
   "status": "proved",
   "theorems": [
    "C01_solve_exact"
   ],
   "note": ""
  },
  {
   "property": "C02",
   "status": "proved",
   "theorems": [
    "C02_singular_iff"
   ],
   "note": ""
  },
  {
   "property": "C03",
   "status": "proved",
   "theorems": [
    "C03_divexact_contract",
    "C03_no_bad_division"
   ],
   "note": ""
  },
  {
   "property": "C04",
   "status": "proved",
   "theorems": [
    "C04_memory_safe"
   ],
   "note": ""
  },
  {
   "property": "C05",
   "status": "proved",
   "theorems": [
    "C05_factorization_identity"
   ],
   "note": ""
  },
  {
   "property": "C06",
   "status": "proved",
   "theorems": [
    "C06_shape"
   ],
   "note": ""
  },
  {
   "property": "C07",
   "status": "proved",
   "theorems": [
    "C07_pinv_permutation"
   ],
   "note": ""
  },
  {
   "property": "C08",
   "status": "proved",
   "theorems": [
    "C08_pivots_are_minors"
   ],
   "note": ""
  },
  {
   "property": "C09",
   "status": "proved",
   "theorems": [
    "C09_entries_are_minors"
   ],
   "note": ""
  },
  {
   "property": "C10",
   "status": "proved",
   "theorems": [
    "C10_smallest"
   ],
   "note": ""
  },
  {
   "property": "C11",
   "status": "proved",
   "theorems": [
    "C11_largest"
   ],
   "note": ""
  },
  {
   "property": "C12",
   "status": "proved",
   "theorems": [
    "C12_diagonal",
    "C12_first_nonzero"
   ],
   "note": ""
  },
  {
   "property": "C13",
   "status": "proved",
   "theorems": [
    "C13_tol_smallest"
   ],
   "note": ""
  },
  {
   "property": "C14",
   "status": "proved",
   "theorems": [
    "C14_tol_largest",
    "C14_documented_rule_refuted"
   ],
   "note": "The documented rule is false of the code for a negative largest entry (C14_documented_rule_refuted); what holds is C14_tol_largest."
  },
  {
   "property": "C15",
   "status": "proved",
   "theorems": [
    "C15_search_failure"
   ],
   "note": ""
  },
  {
   "property": "C16",
   "status": "proved",
   "theorems": [
    "C16_reach_exact"
   ],
   "note": ""
  },
  {
   "property": "C17",
   "status": "proved",
   "theorems": [
    "C17_reach_restores",
    "C17_graphs_in_runs"
   ],
   "note": ""
  },
  {
   "property": "C18",
   "status": "proved",
   "theorems": [
    "C18_pattern_covers"
   ],
   "note": ""
  },
  {
   "property": "C19",
   "status": "proved",
   "theorems": [
    "C19_independent_of_options",
    "C19_backslash"
   ],
   "note": ""
  },
  {
   "property": "C20",
   "status": "proved",
   "theorems": [
    "C20_columns_independent"
   ],
   "note": ""
  },
  {
   "property": "C21",
   "status": "proved",
   "theorems": [
    "C21_arguments_unchanged",
    "C21_computes_values",
    "C21_many_solves"
   ],
   "note": "Stated on the store model MStore.v; the simulation theorem C21_computes_values ties it to the value model of C01."
  },
  {
   "property": "C22",
   "status": "proved",
   "theorems": [
    "C22_check_exact",
    "C22_never_fires"
   ],
   "note": ""
  },
  {
   "property": "C23",
   "status": "proved",
   "theorems": [
    "C23_scales"
   ],
   "note": ""
  },
  {
   "property": "C24",
   "status": "proved",
   "theorems": [
    "C24_capacity"
   ],
   "note": ""
  },
  {
   "property": "C25",
   "status": "proved",
   "theorems": [
    "C25_amd_failure_ignored",
    "C25_colamd_failure_ignored",
    "C25_usable_analysis",
    "C25_rejections"
   ],
   "note": "Both orderings are modelled (C70, C79)."
  },
  {
   "property": "C26",
   "status": "proved",
   "theorems": [
    "C26_backslash",
    "C26_rejections"
   ],
   "note": "Ordering library as in C25."
  },
  {
   "property": "C27",
   "status": "proved",
   "theorems": [
    "C27_wide_is_safe",
    "C27_tall_refuted"
   ],
   "note": "No shape check in the code: tall matrices refuted."
  },
  {
   "property": "C28",
   "status": "proved",
   "theorems": [
    "C28_nonempty",
    "C28_empty_refuted"
   ],
   "note": "C28_nonempty for n>=1; C28_empty_refuted for n=0."
  },
  {
   "property": "C29",
   "status": "proved",
   "theorems": [
    "C29_estimates",
    "C29_sharp"
   ],
   "note": ""
  },
  {
   "property": "C30",
   "status": "proved",
   "theorems": [
    "C30_check_csc"
   ],
   "note": ""
  },
  {
   "property": "C31",
   "status": "proved",
   "theorems": [
    "C31_check_triplet",
    "C31_check_dense"
   ],
   "note": ""
  },
  {
   "property": "C32",
   "status": "proved",
   "theorems": [
    "C32_check_safe",
    "C32_header_refuted"
   ],
   "note": ""
  },
  {
   "property": "C33",
   "status": "proved",
   "theorems": [
    "C33_triplet_to_csc",
    "C33_triplet_to_csc_any_type"
   ],
   "note": ""
  },
  {
   "property": "C34",
   "status": "proved",
   "theorems": [
    "C34_dense_to_csc",
    "C34_dense_to_csc_any_type"
   ],
   "note": ""
  },
  {
   "property": "C35",
   "status": "proved",
   "theorems": [
    "C35_csc_to_dense",
    "C35_triplet_to_dense",
    "C35_mpfr_refuted"
   ],
   "note": ""
  },
  {
   "property": "C36",
   "status": "proved",
   "theorems": [
    "C36_csc_to_triplet",
    "C36_csc_to_triplet_any_type"
   ],
   "note": ""
  },
  {
   "property": "C37",
   "status": "proved",
   "theorems": [
    "C37_dense_to_triplet_entries",
    "C37_full",
    "C37_dense_to_triplet_refuted"
   ],
   "note": ""
  },
  {
   "property": "C38",
   "status": "proved",
   "theorems": [
    "C38_scale",
    "C38_scale_lost_refuted"
   ],
   "note": ""
  },
  {
   "property": "C39",
   "status": "proved",
   "theorems": [
    "C39_mpq_to_mpz",
    "C39_empty_refuted"
   ],
   "note": ""
  },
  {
   "property": "C40",
   "status": "proved",
   "theorems": [
    "C40_mpz_to_mpq",
    "C40_round_trip"
   ],
   "note": ""
  },
  {
   "property": "C41",
   "status": "proved",
   "theorems": [
    "C41_int64_to_mpz",
    "C41_int64_to_mpq_refuted",
    "C41_double_to_mpq",
    "C41_mpfr_to_mpq"
   ],
   "note": ""
  },
  {
   "property": "C42",
   "status": "proved",
   "theorems": [
    "C42_double_to_mpz",
    "C42_exact",
    "C42_inexact_refuted",
    "C42_zero_refuted",
    "C42_zero_rhs_refuted"
   ],
   "note": "Precision >= 93 as stated."
  },
  {
   "property": "C43",
   "status": "proved",
   "theorems": [
    "C43_mpfr_to_mpz",
    "C43_exact",
    "C43_inexact_refuted",
    "C43_zero_refuted"
   ],
   "note": ""
  },
  {
   "property": "C44",
   "status": "proved",
   "theorems": [
    "C44_double_to_int64",
    "C44_boundary_refuted"
   ],
   "note": ""
  },
  {
   "property": "C45",
   "status": "proved",
   "theorems": [
    "C45_nnz",
    "C45_invalid",
    "C45_short_refuted"
   ],
   "note": ""
  },
  {
   "property": "C46",
   "status": "proved",
   "theorems": [
    "C46_allocate",
    "C46_bad_arguments",
    "C46_allocate_memory",
    "C46_oom_code_refuted",
    "C46_header_code"
   ],
   "note": ""
  },
  {
   "property": "C47",
   "status": "proved",
   "theorems": [
    "C47_state_machine",
    "C47_expert_functions_persist",
    "C47_gmp_after_finalize"
   ],
   "note": ""
  },
  {
   "property": "C48",
   "status": "proved",
   "theorems": [
    "C48_never_null",
    "C48_recovery",
    "C48_others_untouched",
    "C48_unregistered_refuted",
    "C48_detached_leak_refuted",
    "C48_allocate",
    "C48_reallocate",
    "C48_free"
   ],
   "note": ""
  },
  {
   "property": "C49",
   "status": "proved",
   "theorems": [
    "C49_list_exact",
    "C49_list_exact_at_failure",
    "C49_emptied"
   ],
   "note": ""
  },
  {
   "property": "C50",
   "status": "proved",
   "theorems": [
    "C50_overflow_guard",
    "C50_guard_incomplete_refuted",
    "C50_malloc_calloc",
    "C50_realloc",
    "C50_realloc_null"
   ],
   "note": ""
  },
  {
   "property": "C51",
   "status": "proved",
   "theorems": [
    "C51_cumsum",
    "C51_null"
   ],
   "note": ""
  },
  {
   "property": "C52",
   "status": "proved",
   "theorems": [
    "C52_amd_order",
    "C52_analyze",
    "C52_factorize",
    "C52_solve",
    "C52_backslash",
    "C52_handles_overwritten"
   ],
   "note": ""
  },
  {
   "property": "C53",
   "status": "proved",
   "theorems": [
    "C53_allocate",
    "C53_analyze",
    "C53_factorize",
    "C53_solve",
    "C53_backslash",
    "C53_detached_leak_refuted",
    "C53_amd_refuted",
    "C53_code_refuted"
   ],
   "note": "All data-dependent branches are oracles; exceptions proved as _refuted theorems."
  },
  {
   "property": "C54",
   "status": "proved",
   "theorems": [
    "C54_default_options",
    "C54_default_rule"
   ],
   "note": ""
  },
  {
   "property": "C55",
   "status": "proved",
   "theorems": [
    "C55_to_mpfr"
   ],
   "note": "mpfr_t with unbounded exponent range."
  },
  {
   "property": "C56",
   "status": "proved",
   "theorems": [
    "C56_to_double"
   ],
   "note": "IEEE doubles with subnormal numbers and overflow. Trusted: mpz_get_d and mpq_get_d truncate and overflow to infinity, as GMP documents."
  },
  {
   "property": "C57",
   "status": "proved",
   "theorems": [
    "C57_backslash_rounded",
    "C57_mpfr_error",
    "C57_double_error"
   ],
   "note": "IEEE doubles as in C56; mpfr_t with unbounded exponent range as in C55."
  },
  {
   "property": "C58",
   "status": "proved",
   "theorems": [
    "C58_copy_options",
    "C58_default"
   ],
   "note": ""
  },
  {
   "property": "C59",
   "status": "proved",
   "theorems": [
    "C59_mpz_to_int64",
    "C59_mpz_wrap_refuted",
    "C59_mpq_to_int64",
    "C59_mpq_small",
    "C59_mpq_boundary_refuted",
    "C59_mpq_lossy_refuted",
    "C59_mpfr_to_int64",
    "C59_mpz_scaled_to_int64"
   ],
   "note": ""
  },
  {
   "property": "C60",
   "status": "proved",
   "theorems": [
    "C60_matrix_free",
    "C60_analysis_free"
   ],
   "note": ""
  },
  {
   "property": "C61",
   "status": "proved",
   "theorems": [
    "C61_copy",
    "C61_silent_exhaustion_refuted"
   ],
   "note": ""
  },
  {
   "property": "C62",
   "status": "proved",
   "theorems": [
    "C62_history"
   ],
   "note": "Programs that free an object while another handle denotes it (aliasing) are excluded by the statement of a history."
  },
  {
   "property": "C63",
   "status": "proved",
   "theorems": [
    "C63_csc_copy",
    "C63_triplet_copy",
    "C63_dense_copy",
    "C63_values"
   ],
   "note": ""
  },
  {
   "property": "C64",
   "status": "proved",
   "theorems": [
    "C64_factorize",
    "C64_solve",
    "C64_copy",
    "C64_check",
    "C64_copy_null_values",
    "C64_copy_null_values_refuted"
   ],
   "note": "SLIP_matrix_copy of a matrix without values: C64_copy_null_values; limit C64_copy_null_values_refuted."
  },
  {
   "property": "C65",
   "status": "proved",
   "theorems": [
    "C65_cramer",
    "C65_integer_systems",
    "C65_solution_size"
   ],
   "note": ""
  },
  {
   "property": "C66",
   "status": "proved",
   "theorems": [
    "C66_hadamard",
    "C66_sparse_bound"
   ],
   "note": ""
  },
  {
   "property": "C67",
   "status": "proved",
   "theorems": [
    "C67_copies_accepted",
    "C67_factors_accepted",
    "C67_solution_accepted"
   ],
   "note": ""
  },
  {
   "property": "C68",
   "status": "proved",
   "theorems": [
    "C68_array_growth",
    "C68_no_overflow"
   ],
   "note": ""
  },
  {
   "property": "C69",
   "status": "proved",
   "theorems": [
    "C69_registration",
    "C69_fscanf_refuted",
    "C69_arguments",
    "C69_mpq_set_si_refuted",
    "C69_names",
    "C69_history",
    "C69_others_unchanged",
    "C69_no_leak"
   ],
   "note": "What each GMP function writes is taken from the GMP/MPFR manuals (GmpSpec.v)."
  },
  {
   "property": "C70",
   "status": "proved",
   "theorems": [
    "C70_colamd_permutation",
    "C70_analyze",
    "C70_colamd_rejects_invalid",
    "C70_duplicates_refuted"
   ],
   "note": "All of COLAMD (colamd.c:1435-3142) is modelled; the two floating-point dense thresholds are arbitrary numbers. The need for the absence of duplicates is C70_duplicates_refuted."
  },
  {
   "property": "C71",
   "status": "proved",
   "theorems": [
    "C71_tripread",
    "C71_single_entry_refuted",
    "C71_null",
    "C71_bad_files_refuted"
   ],
   "note": "scanf is modelled for %ld, %Zd and white space; the single-entry case and wrong files are _refuted theorems."
  },
  {
   "property": "C72",
   "status": "proved",
   "theorems": [
    "C72_read_dense",
    "C72_missing_numbers",
    "C72_null",
    "C72_junk_refuted"
   ],
   "note": "Positive part C72_read_dense and C72_missing_numbers; the silent acceptance of junk is C72_junk_refuted."
  },
  {
   "property": "C73",
   "status": "proved",
   "theorems": [
    "C73_tripread_double_refuted"
   ],
   "note": "The conversion %lf is an arbitrary function."
  },
  {
   "property": "C74",
   "status": "proved",
   "theorems": [
    "C74_command_line",
    "C74_ranges",
    "C74_total",
    "C74_documented_refuted"
   ],
   "note": "atof is an arbitrary function; documented but refused settings are C74_documented_refuted."
  },
  {
   "property": "C75",
   "status": "proved",
   "theorems": [
    "C75_sliplu",
    "C75_reports",
    "C75_bad_file_refuted"
   ],
   "note": "Tolerance must be finite if pivoting uses it."
  },
  {
   "property": "C76",
   "status": "proved",
   "theorems": [
    "C76_options",
    "C76_accepted",
    "C76_rejected",
    "C76_total",
    "C76_defaults",
    "C76_default_tolerance",
    "C76_strings",
    "C76_nan_tolerance_refuted",
    "C76_print_refuted",
    "C76_solution_refuted"
   ],
   "note": "MATLAB strings are lists of character codes; empty non-char fields (mxGetScalar undefined) are outside the model. Deviations are _refuted theorems."
  },
  {
   "property": "C77",
   "status": "proved",
   "theorems": [
    "C77_values",
    "C77_nonfinite",
    "C77_nonfinite_rhs",
    "C77_sizes",
    "C77_2p63_refuted"
   ],
   "note": "A double that fits int64 is read exactly (C41), others as in C42 with precision 128."
  },
  {
   "property": "C78",
   "status": "proved",
   "theorems": [
    "C78_solution",
    "C78_exact",
    "C78_delegates",
    "C78_usage",
    "C78_inputs",
    "C78_two_arguments_refuted",
    "C78_tiny_rhs_refuted",
    "C78_doubles_refuted"
   ],
   "note": "Printing, memory management and the .m files are not modelled. Deviations are _refuted theorems."
  },
  {
   "property": "C79",
   "status": "proved",
   "theorems": [
    "C79_amd_permutation",
    "C79_amd_rejects_invalid",
    "C79_invalid_pointers_refuted",
    "C79_graph",
    "C79_empty_refuted"
   ],
   "note": "All of AMD that amd_l_order runs (amd_order, amd_valid, amd_preprocess, amd_aat, amd_1, amd_2, amd_postorder, amd_post_tree) is modelled; the floating-point dense threshold is an arbitrary number, the statistics other than AMD_LNZ are not modelled. Limits: C79_invalid_pointers_refuted, C79_empty_refuted."
  },
  {
   "property": "C80",
   "status": "proved",
   "theorems": [
    "C80_storage_order",
    "C80_analyze",
    "C80_sorted_refuted"
   ],
   "note": "The limit (sorted against unsorted columns) is C80_sorted_refuted."
  },
  {
   "property": "C81",
   "status": "proved",
   "theorems": [
    "C81_factorize",
    "C81_factorize_model",
    "C81_analyze_colamd",
    "C81_amd",
    "C81_analyze",
    "C81_analyze_factorize"
   ],
   "note": "Numbers (mpz) in fresh entries are initialised by SLIP_matrix_allocate and slip_sparse_realloc and are 0; index arrays of fresh memory are arbitrary."
  },
  {
   "property": "C82",
   "status": "proved",
   "theorems": [
    "C82_example2",
    "C82_example2_reports",
    "C82_example",
    "C82_example_zero_refuted"
   ],
   "note": "example.c has n = 50; the theorems hold for every n >= 1. rand is an arbitrary sequence of ints. The deviation is C82_example_zero_refuted."
  },
  {
   "property": "C83",
   "status": "proved",
   "theorems": [
    "C83_analyze_no_overflow",
    "C83_factorize_no_overflow",
    "C83_solve_no_overflow",
    "C83_pipeline",
    "C83_allocate_no_overflow",
    "C83_nnz_no_overflow",
    "C83_allocate_overflow_refuted",
    "C83_copy_no_overflow",
    "C83_copy_overflow_refuted",
    "C83_check_no_overflow",
    "C83_backslash_no_overflow"
   ],
   "note": "All int64_t expressions of analyze, factorize, solve, backslash, matrix_copy and matrix_check (COLAMD and AMD excepted) are modelled with checked arithmetic. The limits are C83_allocate_overflow_refuted and C83_copy_overflow_refuted."
  },
  {
   "property": "C84",
   "status": "proved",
   "theorems": [
    "C84_solution",
    "C84_defaults",
    "C84_vpa_nul_refuted",
    "C84_rejects"
   ],
   "note": "sparse and vpa are functions of MATLAB: sparse of a full double matrix is modelled (its nonzeros by columns), vpa is not (the outcome says what it is given)."
  },
  {
   "property": "C85",
   "status": "proved",
   "theorems": [
    "C85_storage",
    "C85_last_entry_wins",
    "C85_solve",
    "C85_backslash",
    "C85_duplicates_seen"
   ],
   "note": "Factorization is for the same analysis. COLAMD may leave its arrays on a matrix with duplicates (C70_duplicates_refuted), so that part starts from an analysis that is given."
  },
  {
   "property": "C86",
   "status": "proved",
   "theorems": [
    "C86_certified",
    "C86_same_as_backslash",
    "C86_unchecked_refuted"
   ],
   "note": "Partial correctness in the factors: for arbitrary factors the call may also fail or read out of bounds; the claim is about the calls that return SLIP_OK. The limit is C86_unchecked_refuted."
  },
  {
   "property": "C87",
   "status": "proved",
   "theorems": [
    "C87_transformed",
    "C87_equations",
    "C87_unknowns",
    "C87_combinations",
    "C87_linear",
    "C87_inverse",
    "C87_known",
    "C87_reused",
    "C87_product"
   ],
   "note": "For the rational solution (type SLIP_MPQ); A and B stand for their entries divided by their scales."
  },
  {
   "property": "C88",
   "status": "proved",
   "theorems": [
    "C88_same_verdict",
    "C88_quiet",
    "C88_messages",
    "C88_message_true",
    "C88_listing",
    "C88_truncated",
    "C88_limit",
    "C88_memory_safe",
    "C88_missing_values_refuted",
    "C88_print_failure_refuted"
   ],
   "note": "Numbers are printed as such: their conversion to digits by printf and mpfr_asprintf is not modelled. The limits are C88_missing_values_refuted and C88_print_failure_refuted."
  },
  {
   "property": "C89",
   "status": "proved",
   "theorems": [
    "C89_recommended",
    "C89_symamd_permutation",
    "C89_lower_triangle",
    "C89_report",
    "C89_decreasing_refuted"
   ],
   "note": "n and the number of entries are at most 2^58 (more does not fit into memory); statistics other than the error report are not modelled. The limit is C89_decreasing_refuted."
  },
  {
   "property": "C90",
   "status": "proved",
   "theorems": [
    "C90_analyze",
    "C90_factorize_in_range",
    "C90_no_wrong_factors",
    "C90_false_singular_refuted",
    "C90_unsafe_refuted",
    "C90_backslash",
    "C90_backslash_granted"
   ],
   "note": "The allocations of SLIP_LU_analyze itself are in C52/C53. Limits: C90_false_singular_refuted, C90_unsafe_refuted."
  },
  {
   "property": "C91",
   "status": "proved",
   "theorems": [
    "C91_copy",
    "C91_rational_systems"
   ],
   "note": "A may be of any of the three kinds; B is dense."
  }
 ]
}
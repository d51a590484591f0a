PropLU.C01_solve_exact: Closed under the global context
PropLU.C02_singular_iff: Closed under the global context
PropLU.C03_divexact_contract: Closed under the global context
PropLU.C03_no_bad_division: Closed under the global context
PropLU.C04_memory_safe: Closed under the global context
PropLU.C05_factorization_identity: Closed under the global context
PropLU.C06_shape: Closed under the global context
PropLU.C07_pinv_permutation: Closed under the global context
PropLU.C08_pivots_are_minors: Closed under the global context
PropLU.C09_entries_are_minors: Closed under the global context
PropLU.C10_smallest: Closed under the global context
PropLU.C11_largest: Closed under the global context
PropLU.C12_diagonal: Closed under the global context
PropLU.C12_first_nonzero: Closed under the global context
PropLU.C13_tol_smallest: Closed under the global context
PropLU.C14_tol_largest: Closed under the global context
PropLU2.C14_documented_rule_refuted: Closed under the global context
PropLU.C15_search_failure: Closed under the global context
PropLU2.C16_reach_exact: Closed under the global context
PropLU2.C17_reach_restores: Closed under the global context
PropLU2.C17_graphs_in_runs: Closed under the global context
PropLU2.C18_pattern_covers: Closed under the global context
PropLU2.C19_independent_of_options: Closed under the global context
PropLU2.C19_backslash: Closed under the global context
PropLU2.C20_columns_independent: Closed under the global context
PropStore.C21_arguments_unchanged: Closed under the global context
PropStore.C21_computes_values: Closed under the global context
PropStore.C21_many_solves: Closed under the global context
PropLU2.C22_check_exact: Closed under the global context
PropLU2.C22_never_fires: Closed under the global context
PropLU2.C23_scales: Closed under the global context
PropLU2.C24_capacity: Closed under the global context
PropAmd.C25_amd_failure_ignored: Closed under the global context
PropColamd.C25_colamd_failure_ignored: Closed under the global context
PropLU2.C25_usable_analysis: Closed under the global context
PropLU2.C25_rejections: Closed under the global context
PropLU2.C26_backslash: Closed under the global context
PropLU2.C26_rejections: Closed under the global context
PropLU2.C27_wide_is_safe: Closed under the global context
PropLU2.C27_tall_refuted: Closed under the global context
PropLU2.C28_nonempty: Closed under the global context
PropLU2.C28_empty_refuted: Closed under the global context
PropLU2.C29_estimates: Closed under the global context
PropLU2.C29_sharp: Closed under the global context
PropMat.C30_check_csc: Closed under the global context
PropMat.C31_check_triplet: Closed under the global context
PropMat.C31_check_dense: Closed under the global context
PropMat.C32_check_safe: Closed under the global context
PropMat.C32_header_refuted: Closed under the global context
PropMat.C33_triplet_to_csc: Closed under the global context
PropMat.C33_triplet_to_csc_any_type: Closed under the global context
PropMat.C34_dense_to_csc: Closed under the global context
PropMat.C34_dense_to_csc_any_type: Closed under the global context
PropMat.C35_csc_to_dense: Closed under the global context
PropMat.C35_triplet_to_dense: Closed under the global context
PropMat.C35_mpfr_refuted: Closed under the global context
PropMat.C36_csc_to_triplet: Closed under the global context
PropMat.C36_csc_to_triplet_any_type: Closed under the global context
PropMat.C37_dense_to_triplet_entries: Closed under the global context
PropMat.C37_full: Closed under the global context
PropMat.C37_dense_to_triplet_refuted: Closed under the global context
PropMat.C38_scale: Closed under the global context
PropMat.C38_scale_lost_refuted: Closed under the global context
PropMat2.C39_mpq_to_mpz: Closed under the global context
PropMat2.C39_empty_refuted: Closed under the global context
PropMat2.C40_mpz_to_mpq: Closed under the global context
PropMat2.C40_round_trip: Closed under the global context
PropMat2.C41_int64_to_mpz: Closed under the global context
PropMat2.C41_int64_to_mpq_refuted: Closed under the global context
PropMat2.C41_double_to_mpq: Closed under the global context
PropMat4.C41_mpfr_to_mpq: Closed under the global context
PropMat2.C42_double_to_mpz: Closed under the global context
PropMat2.C42_exact: Closed under the global context
PropMat2.C42_inexact_refuted: Closed under the global context
PropMat2.C42_zero_refuted: Closed under the global context
PropMat2.C42_zero_rhs_refuted: Closed under the global context
PropMat2.C43_mpfr_to_mpz: Closed under the global context
PropMat2.C43_exact: Closed under the global context
PropMat2.C43_inexact_refuted: Closed under the global context
PropMat2.C43_zero_refuted: Closed under the global context
PropMat2.C44_double_to_int64: Closed under the global context
PropMat2.C44_boundary_refuted: Closed under the global context
PropMat2.C45_nnz: Closed under the global context
PropMat2.C45_invalid: Closed under the global context
PropMat2.C45_short_refuted: Closed under the global context
PropMat2.C46_allocate: Closed under the global context
PropMat2.C46_bad_arguments: Closed under the global context
PropRes.C46_allocate_memory: Closed under the global context
PropRes.C46_oom_code_refuted: Closed under the global context
PropRes.C46_header_code: Closed under the global context
PropMem.C47_state_machine: Closed under the global context
PropMem.C47_expert_functions_persist: Closed under the global context
PropMem.C47_gmp_after_finalize: Closed under the global context
PropMem.C48_never_null: Closed under the global context
PropMem.C48_recovery: Closed under the global context
PropMem.C48_others_untouched: Closed under the global context
PropMem.C48_unregistered_refuted: Closed under the global context
PropMem.C48_detached_leak_refuted: Closed under the global context
PropMem2.C48_allocate: Closed under the global context
PropMem2.C48_reallocate: Closed under the global context
PropMem2.C48_free: Closed under the global context
PropMem.C49_list_exact: Closed under the global context
PropMem.C49_list_exact_at_failure: Closed under the global context
PropMem.C49_emptied: Closed under the global context
PropMem.C50_overflow_guard: Closed under the global context
PropMem.C50_guard_incomplete_refuted: Closed under the global context
PropMem.C50_malloc_calloc: Closed under the global context
PropMem.C50_realloc: Closed under the global context
PropMem.C50_realloc_null: Closed under the global context
PropMat2.C51_cumsum: Closed under the global context
PropMat2.C51_null: Closed under the global context
PropRes.C52_amd_order: Closed under the global context
PropRes.C52_analyze: Closed under the global context
PropRes.C52_factorize: Closed under the global context
PropRes.C52_solve: Closed under the global context
PropRes.C52_backslash: Closed under the global context
PropRes.C52_handles_overwritten: Closed under the global context
PropRes.C53_allocate: Closed under the global context
PropRes.C53_analyze: Closed under the global context
PropRes.C53_factorize: Closed under the global context
PropRes.C53_solve: Closed under the global context
PropRes.C53_backslash: Closed under the global context
PropRes.C53_detached_leak_refuted: Closed under the global context
PropRes.C53_amd_refuted: Closed under the global context
PropRes.C53_code_refuted: Closed under the global context
PropLU2.C54_default_options: Closed under the global context
PropLU2.C54_default_rule: Closed under the global context
PropMat3.C55_to_mpfr: Closed under the global context
PropMat3.C56_to_double: Closed under the global context
PropMat3.C57_backslash_rounded: Closed under the global context
PropMat7.C57_mpfr_error: Closed under the global context
PropMat7.C57_double_error: Closed under the global context
PropMat3.C58_copy_options: Closed under the global context
PropMat3.C58_default: Closed under the global context
PropMat3.C59_mpz_to_int64: Closed under the global context
PropMat3.C59_mpz_wrap_refuted: Closed under the global context
PropMat3.C59_mpq_to_int64: Closed under the global context
PropMat3.C59_mpq_small: Closed under the global context
PropMat3.C59_mpq_boundary_refuted: Closed under the global context
PropMat3.C59_mpq_lossy_refuted: Closed under the global context
PropMat3.C59_mpfr_to_int64: Closed under the global context
PropMat4.C59_mpz_scaled_to_int64: Closed under the global context
PropRes.C60_matrix_free: Closed under the global context
PropRes.C60_analysis_free: Closed under the global context
PropRes.C61_copy: Closed under the global context
PropRes.C61_silent_exhaustion_refuted: Closed under the global context
PropRes.C62_history: Closed under the global context
PropMat4.C63_csc_copy: Closed under the global context
PropMat4.C63_triplet_copy: Closed under the global context
PropMat4.C63_dense_copy: Closed under the global context
PropMat4.C63_values: Closed under the global context
PropMat4.C64_factorize: Closed under the global context
PropMat4.C64_solve: Closed under the global context
PropMat4.C64_copy: Closed under the global context
PropMat4.C64_check: Closed under the global context
PropMat6.C64_copy_null_values: Closed under the global context
PropMat6.C64_copy_null_values_refuted: Closed under the global context
PropLU3.C65_cramer: Closed under the global context
PropLU3.C65_integer_systems: Closed under the global context
PropLU3.C65_solution_size: Closed under the global context
PropLU3.C66_hadamard: Closed under the global context
PropLU3.C66_sparse_bound: Closed under the global context
PropMat5.C67_copies_accepted: Closed under the global context
PropMat5.C67_factors_accepted: Closed under the global context
PropMat5.C67_solution_accepted: Closed under the global context
PropLU3.C68_array_growth: Closed under the global context
PropLU3.C68_no_overflow: Closed under the global context
PropGmp.C69_registration: Closed under the global context
PropGmp.C69_fscanf_refuted: Closed under the global context
PropGmp.C69_arguments: Closed under the global context
PropGmp.C69_mpq_set_si_refuted: Closed under the global context
PropGmp.C69_names: Closed under the global context
PropGmp.C69_history: Closed under the global context
PropGmp.C69_others_unchanged: Closed under the global context
PropGmp.C69_no_leak: Closed under the global context
PropColamd.C70_colamd_permutation: Closed under the global context
PropColamd.C70_analyze: Closed under the global context
PropColamd.C70_colamd_rejects_invalid: Closed under the global context
PropColamd.C70_duplicates_refuted: Closed under the global context
PropDemo.C71_tripread: Closed under the global context
PropDemo.C71_single_entry_refuted: Closed under the global context
PropDemo.C71_null: Closed under the global context
PropDemo.C71_bad_files_refuted: Closed under the global context
PropDemo.C72_read_dense: Closed under the global context
PropDemo.C72_missing_numbers: Closed under the global context
PropDemo.C72_null: Closed under the global context
PropDemo.C72_junk_refuted: Closed under the global context
PropDemo.C73_tripread_double_refuted: Closed under the global context
PropDemo.C74_command_line: Closed under the global context
PropDemo.C74_ranges: Closed under the global context
PropDemo.C74_total: Closed under the global context
PropDemo.C74_documented_refuted: Closed under the global context
PropDemo.C75_sliplu: Closed under the global context
PropDemo.C75_reports: Closed under the global context
PropDemo.C75_bad_file_refuted: Closed under the global context
PropMex.C76_options: Closed under the global context
PropMex.C76_accepted: Closed under the global context
PropMex.C76_rejected: Closed under the global context
PropMex.C76_total: Closed under the global context
PropMex.C76_defaults: Closed under the global context
PropMex.C76_default_tolerance: Closed under the global context
PropMex.C76_strings: Closed under the global context
PropMex.C76_nan_tolerance_refuted: Closed under the global context
PropMex.C76_print_refuted: Closed under the global context
PropMex.C76_solution_refuted: Closed under the global context
PropMex.C77_values: Closed under the global context
PropMex.C77_nonfinite: Closed under the global context
PropMex.C77_nonfinite_rhs: Closed under the global context
PropMex.C77_sizes: Closed under the global context
PropMex.C77_2p63_refuted: Closed under the global context
PropMex.C78_solution: Closed under the global context
PropMex.C78_exact: Closed under the global context
PropMex.C78_delegates: Closed under the global context
PropMex.C78_usage: Closed under the global context
PropMex.C78_inputs: Closed under the global context
PropMex.C78_two_arguments_refuted: Closed under the global context
PropMex.C78_tiny_rhs_refuted: Closed under the global context
PropMex.C78_doubles_refuted: Closed under the global context
PropAmd.C79_amd_permutation: Closed under the global context
PropAmd.C79_amd_rejects_invalid: Closed under the global context
PropAmd.C79_invalid_pointers_refuted: Closed under the global context
PropAmd.C79_graph: Closed under the global context
PropAmd.C79_empty_refuted: Closed under the global context
PropAmd.C80_storage_order: Closed under the global context
PropAmd.C80_analyze: Closed under the global context
PropAmd.C80_sorted_refuted: Closed under the global context
PropUninit.C81_factorize: Closed under the global context
PropUninit.C81_factorize_model: Closed under the global context
PropUninit.C81_analyze_colamd: Closed under the global context
PropUninit.C81_amd: Closed under the global context
PropUninit.C81_analyze: Closed under the global context
PropUninit.C81_analyze_factorize: Closed under the global context
PropDemo2.C82_example2: Closed under the global context
PropDemo2.C82_example2_reports: Closed under the global context
PropDemo2.C82_example: Closed under the global context
PropDemo2.C82_example_zero_refuted: Closed under the global context
PropInt64.C83_analyze_no_overflow: Closed under the global context
PropInt64.C83_factorize_no_overflow: Closed under the global context
PropInt64.C83_solve_no_overflow: Closed under the global context
PropInt64.C83_pipeline: Closed under the global context
PropInt64.C83_allocate_no_overflow: Closed under the global context
PropInt64.C83_nnz_no_overflow: Closed under the global context
PropInt64.C83_allocate_overflow_refuted: Closed under the global context
PropInt64b.C83_copy_no_overflow: Closed under the global context
PropInt64b.C83_copy_overflow_refuted: Closed under the global context
PropInt64b.C83_check_no_overflow: Closed under the global context
PropInt64b.C83_backslash_no_overflow: Closed under the global context
PropMatlab.C84_solution: Closed under the global context
PropMatlab.C84_defaults: Closed under the global context
PropMatlab.C84_vpa_nul_refuted: Closed under the global context
PropMatlab.C84_rejects: Closed under the global context
PropStorage.C85_storage: Closed under the global context
PropStorage.C85_last_entry_wins: Closed under the global context
PropStorage.C85_solve: Closed under the global context
PropStorage.C85_backslash: Closed under the global context
PropStorage.C85_duplicates_seen: Closed under the global context
PropCert.C86_certified: Closed under the global context
PropCert.C86_same_as_backslash: Closed under the global context
PropCert.C86_unchecked_refuted: Closed under the global context
PropMeta.C87_transformed: Closed under the global context
PropMeta.C87_equations: Closed under the global context
PropMeta.C87_unknowns: Closed under the global context
PropMeta.C87_combinations: Closed under the global context
PropMeta.C87_linear: Closed under the global context
PropMeta2.C87_inverse: Closed under the global context
PropMeta2.C87_known: Closed under the global context
PropMeta2.C87_reused: Closed under the global context
PropMeta2.C87_product: Closed under the global context
PropPrint.C88_same_verdict: Closed under the global context
PropPrint.C88_quiet: Closed under the global context
PropPrint.C88_messages: Closed under the global context
PropPrint.C88_message_true: Closed under the global context
PropPrint.C88_listing: Closed under the global context
PropPrint.C88_truncated: Closed under the global context
PropPrint.C88_limit: Closed under the global context
PropPrint.C88_memory_safe: Closed under the global context
PropPrint.C88_missing_values_refuted: Closed under the global context
PropPrint.C88_print_failure_refuted: Closed under the global context
PropSym.C89_recommended: Closed under the global context
PropSym.C89_symamd_permutation: Closed under the global context
PropSym.C89_lower_triangle: Closed under the global context
PropSym.C89_report: Closed under the global context
PropSym.C89_decreasing_refuted: Closed under the global context
PropAmdMem.C90_analyze: Closed under the global context
PropAmdMem.C90_factorize_in_range: Closed under the global context
PropAmdMem.C90_no_wrong_factors: Closed under the global context
PropAmdMem.C90_false_singular_refuted: Closed under the global context
PropAmdMem.C90_unsafe_refuted: Closed under the global context
PropAmdMem.C90_backslash: Closed under the global context
PropAmdMem.C90_backslash_granted: Closed under the global context
PropRat.C91_copy: Closed under the global context
PropRat.C91_rational_systems: Closed under the global context

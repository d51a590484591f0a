NOTES={
 'C21':('proved','Stated on the store model MStore.v; the simulation theorem C21_computes_values ties it to the value model of C01.'),
 'C14':('proved','The documented rule is false of the code for a negative largest entry (C14_documented_rule_refuted); what holds is C14_tol_largest.'),
 'C25':('proved','Both orderings are modelled (C70, C79).'),
 'C26':('proved','Ordering library as in C25.'),
 'C27':('proved','No shape check in the code: tall matrices refuted.'),
 'C28':('proved','C28_nonempty for n>=1; C28_empty_refuted for n=0.'),
 'C42':('proved','Precision >= 93 as stated.'),
 'C55':('proved','mpfr_t with unbounded exponent range.'),
 'C56':('proved','IEEE doubles with subnormal numbers and overflow. Trusted: mpz_get_d and mpq_get_d truncate and overflow to infinity, as GMP documents.'),
 'C57':('proved','IEEE doubles as in C56; mpfr_t with unbounded exponent range as in C55.'),
 'C53':('proved','All data-dependent branches are oracles; exceptions proved as _refuted theorems.'),
 'C62':('proved','Programs that free an object while another handle denotes it (aliasing) are excluded by the statement of a history.'),
 'C69':('proved','What each GMP function writes is taken from the GMP/MPFR manuals (GmpSpec.v).'),
 'C70':('proved','All of COLAMD (colamd.c:1435-3142) is modelled; the two floating-point dense thresholds are arbitrary numbers. The need for the absence of duplicates is C70_duplicates_refuted.'),
 'C71':('proved','scanf is modelled for %ld, %Zd and white space; the single-entry case and wrong files are _refuted theorems.'),
 'C72':('proved','Positive part C72_read_dense and C72_missing_numbers; the silent acceptance of junk is C72_junk_refuted.'),
 'C73':('proved','The conversion %lf is an arbitrary function.'),
 'C74':('proved','atof is an arbitrary function; documented but refused settings are C74_documented_refuted.'),
 'C75':('proved','Tolerance must be finite if pivoting uses it.'),
 'C76':('proved','MATLAB strings are lists of character codes; empty non-char fields (mxGetScalar undefined) are outside the model. Deviations are _refuted theorems.'),
 'C77':('proved','A double that fits int64 is read exactly (C41), others as in C42 with precision 128.'),
 'C78':('proved','Printing, memory management and the .m files are not modelled. Deviations are _refuted theorems.'),
 'C79':('proved','All of AMD that amd_l_order runs (amd_order, amd_valid, amd_preprocess, amd_aat, amd_1, amd_2, amd_postorder, amd_post_tree) is modelled; the floating-point dense threshold is an arbitrary number, the statistics other than AMD_LNZ are not modelled. Limits: C79_invalid_pointers_refuted, C79_empty_refuted.'),
 'C80':('proved','The limit (sorted against unsorted columns) is C80_sorted_refuted.'),
 'C81':('proved','Numbers (mpz) in fresh entries are initialised by SLIP_matrix_allocate and slip_sparse_realloc and are 0; index arrays of fresh memory are arbitrary.'),
 'C82':('proved','example.c has n = 50; the theorems hold for every n >= 1. rand is an arbitrary sequence of ints. The deviation is C82_example_zero_refuted.'),
 'C84':('proved','sparse and vpa are functions of MATLAB: sparse of a full double matrix is modelled (its nonzeros by columns), vpa is not (the outcome says what it is given).'),
 'C83':('proved','All int64_t expressions of analyze, factorize, solve, backslash, matrix_copy and matrix_check (COLAMD and AMD excepted) are modelled with checked arithmetic. The limits are C83_allocate_overflow_refuted and C83_copy_overflow_refuted.'),
 'C85':('proved','Factorization is for the same analysis. COLAMD may leave its arrays on a matrix with duplicates (C70_duplicates_refuted), so that part starts from an analysis that is given.'),
 'C86':('proved','Partial correctness in the factors: for arbitrary factors the call may also fail or read out of bounds; the claim is about the calls that return SLIP_OK. The limit is C86_unchecked_refuted.'),
 'C87':('proved','For the rational solution (type SLIP_MPQ); A and B stand for their entries divided by their scales.'),
 'C88':('proved','Numbers are printed as such: their conversion to digits by printf and mpfr_asprintf is not modelled. The limits are C88_missing_values_refuted and C88_print_failure_refuted.'),
 'C91':('proved','A may be of any of the three kinds; B is dense.'),
 'C90':('proved','The allocations of SLIP_LU_analyze itself are in C52/C53. Limits: C90_false_singular_refuted, C90_unsafe_refuted.'),
 'C64':('proved','SLIP_matrix_copy of a matrix without values: C64_copy_null_values; limit C64_copy_null_values_refuted.'),
 'C89':('proved','n and the number of entries are at most 2^58 (more does not fit into memory); statistics other than the error report are not modelled. The limit is C89_decreasing_refuted.'),
}

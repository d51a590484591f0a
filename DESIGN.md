# Formal model of SLIP_LU in Rocq (Coq 8.16.1)

Read in this order: `properties.jsonl` (the English claims), the specification files (`Spec.v`, `LUSpec.v`, `PivotSpec.v`,
`ApiSpec.v`, `MatSpec.v`, `MemSpec.v`, `ResSpec.v`, `DemoSpec.v`, `MexSpec.v`), the models (`M*.v`), the theorems (`Prop*.v`).  Everything else (`P*.v`,
`Det*.v`, `Hadamard.v`, `SumQ.v`) is proof or mathematics.  `MANIFEST.json` maps properties to theorem names.

## 1. Style of the model

* Plain Gallina over `Z`, `list`, `Q`.  A C function becomes a total function with result
  `res A := Ok a | Err info | UB | Fuel`: `Err` = the function returns that `SLIP_info`, `UB` = undefined behaviour
  (out-of-bounds access, inexact or zero `mpz_divexact`, GMP called outside its contract, out-of-range float conversion, NULL
  dereference), `Fuel` = the bound given to a `while` loop was too small.  Theorems that say what a function returns exclude
  `UB` and `Fuel` for all inputs they quantify over: they are also memory-safety and termination theorems.
* Arrays are lists accessed only through checked `get`/`set` (out of range gives `UB`).  `for` loops are `for_ lo hi body state`
  (`down_` for descending ones); `while` loops have explicit fuel.
* Every definition of a model file cites the file and lines of /repo it models, and what it simplifies.
* The code is modelled at different levels, each for the properties that need it:

| file | level | what is in it |
|---|---|---|
| `MFactor.v`, `MSolve.v`, `MApi.v` | values | factorization (`slip_dfs`, `slip_reach`, `slip_sort_xi`, `slip_get_nonzero_pivot`, `slip_get_smallest/largest_pivot`, `slip_get_pivot`, `slip_ref_triangular_solve`, `slip_sparse_realloc`, main loop), solution (`slip_permute_b`, `slip_forward_sub`, `slip_matrix_mul`, `slip_back_sub`, `slip_matrix_div`, `slip_permute_x`, `slip_check_solution`), drivers with their argument checks (`SLIP_LU_analyze`, `SLIP_LU_factorize`, `SLIP_LU_solve`, `SLIP_backslash`), default options |
| `MMatrix.v` | values | `SLIP_matrix` of 3 kinds and 5 types: `SLIP_matrix_allocate`, `SLIP_matrix_nnz`, `SLIP_matrix_check`, `SLIP_matrix_copy`, `slip_cumsum`, `slip_cast_array`, `slip_cast_matrix`, all `slip_expand_*_array`, `slip_cast_double_to_int64`; doubles and `mpfr_t` as (mantissa, exponent), NaN, infinities |
| `MColamd.v` | values | all of COLAMD (`COLAMD_MAIN`, `init_rows_cols`, `init_scoring`, `find_ordering`, `order_children`, `detect_super_cols`, `garbage_collection`, `clear_mark`, colamd.c:1435-3142), called by `SLIP_LU_analyze` in `MApi.v` |
| `MAmd.v` | values | all of AMD that `amd_l_order` runs: `AMD_order`, `AMD_valid`, `AMD_preprocess`, `AMD_aat`, `AMD_1`, `AMD_2` (degree lists, element construction with in-place compression, both scans with aggressive absorption, supervariable detection, finalization, assembly tree), `AMD_postorder`, `AMD_post_tree`; called by `SLIP_LU_analyze` in `MApi.v` |
| `MUninit.v` | values | `SLIP_LU_factorize` and `slip_sparse_realloc` once more, with the contents of fresh memory (malloc, realloc) as an arbitrary parameter |
| `MInt64.v` | values, 64-bit | `SLIP_LU_analyze`, `SLIP_LU_factorize`, `SLIP_LU_solve` and all they call (except COLAMD, AMD and GMP) once more, every `int64_t` operation checked for overflow, the estimates in double; `SLIP_matrix_allocate`, `SLIP_matrix_nnz` with checked or wrapping arithmetic |
| `MInt64b.v` | values, 64-bit | `SLIP_matrix_copy`, `SLIP_matrix_check` (with `slip_cumsum`, `slip_cast_array`, `slip_cast_matrix`, `slip_expand_*_array`) and `SLIP_backslash` once more, every `int64_t` operation checked for overflow |
| `MDemo.v` | values | `SLIP_LU/Demo`: `SLIP_tripread`, `SLIP_tripread_double`, `SLIP_read_dense`, `SLIP_process_command_line`, `main` of SLIPLU.c, with the parts of scanf, gmp_scanf, feof and atoi they use; files are lists of bytes |
| `MExample.v` | values | `SLIP_LU/Demo`: `main` of example.c (for any n) and of example2.c; `rand` is any sequence of ints |
| `MPrint.v` | output | `SLIP_matrix_check` with everything it prints: `SLIP_PR1/2`, `SLIP_PR_LIMIT`, `SLIP_mpfr_asprintf` (may fail), the values read for printing |
| `MSymamd.v` | SYMAMD | `symamd_l` (colamd.c:1112-1421) with its error report, its allocations and releases, and `colamd_l_recommended` with size_t arithmetic modulo 2^64 |
| `MAmdMem.v` | AMD out of memory | `AMD_order` with its five allocations (amd_order.c:20-199), what AMD_aat leaves in P, and SLIP_LU_analyze, which ignores the status |
| `MMex.v` | values | `SLIP_LU/MATLAB`: `mexFunction` of SLIP_mex_soln.c, `slip_get_matlab_options`, `slip_mex_check_for_inf`, `slip_mex_get_A_and_b`, messages of `slip_mex_error`; MATLAB arrays as records |
| `MMatlab.v` | values | `SLIP_LU/MATLAB/SLIP_backslash.m` and the built-in `sparse` |
| `MStore.v` | objects with identity | `SLIP_LU_solve` and what it calls, on a heap of objects modified in place through handles, temporaries created and destroyed |
| `MRes.v` | ownership | which blocks each function (matrix_allocate/free, copy, cast, expand, analyze, factorize, solve, backslash and all they call) allocates and frees on every path; every branch on data and every failing allocation is an oracle |
| `MMem.v` | bytes and GMP | `SuiteSparse_malloc/calloc/realloc/free`, `SLIP_malloc/...`, `SLIP_initialize/_expert/finalize`, the GMP memory functions with the block list and `setjmp/longjmp` recovery of `SLIP_gmp.c`, wrapped GMP calls as arbitrary sequences of allocation requests |
| `MGmp.v` | GMP numbers | the table of all 65 wrappers of `SLIP_gmp.c` (parameters, registered object, GMP function called, arguments handed over), `SLIP_MPZ/MPQ/MPFR_CLEAR`, programs of such calls |

## 2. Per property: model and method

| property | model | theorems are proved by |
|---|---|---|
| C01-C09, C18, C24 | MFactor, MSolve, MApi | loop invariants in a weakest-precondition style; the numeric invariant says that every workspace entry is a bordered minor of A (own determinant library `Det.v`, `DetZ.v`); Bareiss/Sylvester step `bord_step`; integrality of the back substitution by the adjugate |
| C10-C15 | pivot searches inside the factorization loop | invariant "extremal among the scanned prefix"; the rule is `PivotSpec.pivot_rule`, stated for every step of every run; C14 has a refutation witness |
| C16, C17 | slip_dfs, slip_reach | invariant of the shared stack/output array; reachability is an inductive relation |
| C19, C20 | corollaries | uniqueness of the solution of a non-singular system |
| C21 | MStore | frame theorem (only fresh objects are written) plus simulation of the value model |
| C22, C23 | tail of SLIP_LU_solve | direct, over Q |
| C25, C26, C54, C64 | drivers | composition, case analysis of the argument checks |
| C27-C29 | factorize/solve outside the square case | the same invariants where they survive, concrete or universally quantified refutations where they do not |
| C30-C32, C67 | SLIP_matrix_check | equivalence with declarative validity |
| C33-C38, C63, C51 | SLIP_matrix_copy | multiset / position-wise correspondence, generic in the type of values |
| C39-C44, C55-C59 | value conversions | rational arithmetic; `rounded`, `rounding`, `double_rounded` specify correct rounding without reference to the algorithm |
| C45, C46 | nnz, allocate | direct; memory part on MRes |
| C47-C50 | MMem | invariants over all histories of calls, all allocator behaviours |
| C52, C53, C60-C62 | MRes | an ownership type system, sound for double free / use after free / leaks, then typing of every function; C62 is induction on histories |
| C65, C66 | corollaries of C01, C09 | Cramer's rule; Hadamard's inequality from Gram determinants (`Hadamard.v`) |
| C68 | MFactor | invariant on the capacity of L, U |
| C70 | MColamd | representation invariants of the quotient graph and of the degree/hash lists (`PCol1`-`PCol16`), a measure for every loop, in-place garbage collection |
| C79, C80 | MAmd | representation invariants of the quotient graph (elements, variables, absorbed nodes, their lists in Iw), of the degree and hash lists, of the flags W, and of the assembly forest (`PAmd1`-`PAmd21`); a bound on the free space of Iw; a measure for every loop |
| C81 | MUninit, MColamd, MAmd | lockstep simulation of two runs: workspace agrees where it has been written, L and U agree below the number of entries in use (`PUninit`); in COLAMD the row and column array agrees below the first free cell (`PUninit2`-`PUninit4`); for AMD a run whose fresh cells hold an index out of range is compared with any other: it succeeds (C79), so it never used such a cell (`PUninit5`, `PUninit6`) |
| C83 | MInt64, MInt64b | simulation: wherever the unbounded model is defined the checked one gives the same result (`PInt64`, `PInt64c`), bounds from the sizes of the arrays; rounding lemmas for the double estimates (`PInt64b`); composition with C01-C03, C25 |
| C85 | MFactor, MApi | lockstep simulation of two runs that differ in the workspace of the reach (`PStorage`): both reaches list the same set without repetition, so after sorting the same sequence; a valid counterpart exists for every matrix with duplicates (`PStorage2`) |
| C88 | MPrint | SLIP_matrix_check with its output (print level, line counter, outcome of each string allocation); a simulation shows that every step of the checks of MMatrix is taken and prints a list of events that does not depend on the level; the output at each level is a fold over that list; every message carries a proof of what it says, with an invariant of the marks of the duplicate search |
| C89 | MSymamd | both passes over A are shown to be folds over the list of entries below the diagonal in order of first occurrence (SymSpec.lower); the invariant of the second fold gives a pattern with sorted columns, to which C70 applies; so the result is a function of that list; failure paths by case analysis. |
| C90 | MAmdMem, MFactor | AMD_order with a flag for each of its five allocations; the failing runs by symbolic execution, with the invariant of AMD_aat for its workspace (P); the invariant of the factorization (PTri, PFactor) needs only that the entries of q are in range, and two equal columns make the determinant that it computes zero |
| C91 | SLIP_matrix_copy, SLIP_backslash (PropRat) | composition of C39 (common denominator), the copy of the pattern and C26; a rational matrix has an inverse iff the determinant of the integer copy is not zero |
| C87 | SLIP_backslash, SLIP_matrix_copy (PropMeta, PropMeta2) | from the driver theorem and uniqueness: algebra of rational matrices, a matrix of integers over a scale is invertible iff its determinant is not zero (common denominators, multiplicativity of the determinant) |
| C86 | SLIP_LU_solve | a partial-correctness logic (`PropCert.pc`): nothing is assumed of the factors, every X that passes slip_check_solution is canonical and satisfies A X = B before the scaling; refutation without the check |
| C84 | MMatlab (on MMex) | sparse (A) has the entries of A (count and position lemmas of C37), then C78; refutation for "vpa" with a final character 0 |
| C71-C75 | MDemo | an inductive file format (`DemoSpec.text`), scanning lemmas, loop invariants; C75 composes C71, C72 and the driver theorems |
| C82 | MExample | loop invariant for the generated triplets; composition of C71, C72, C26 (example2) and of C33, C42, C57 and multilinearity of det (example) |
| C76-C78 | MMex | the documented options and the values of MATLAB arrays are specified in `MexSpec.v`; loop invariants for the scans; C78 composes C41, C42, C56, the driver theorems and multilinearity of det |
| C69 | MGmp, MMem | table checked row by row; invariant `objects_ok` over all programs, frame and ownership lemmas |

Several English claims turned out to be false of the code.  Their statement in `properties.jsonl` says what does hold and what
does not; the positive part is a theorem and the negative part a theorem named `_refuted`.  No property is left partial.

## 3. Findings (all proved as theorems)

* C14: with SLIP_TOL_LARGEST `mpq` gets a possibly negative denominator (slip_get_pivot.c), outside GMP's contract.
* C25/C53: the status of `amd_l_order` and `colamd_l` is ignored.  C70: duplicate row indices, which SLIP_LU_analyze accepts, make COLAMD's
  garbage collector read uninitialised workspace and leave its arrays.  C27: no check for m>n.  C28: n=0 reads rhos[-1].
* C79: with SLIP_AMD and an empty matrix, analyze returns SLIP_OK with lnz = unz = -1 (AMD_order returns before it sets AMD_LNZ); AMD_valid reads
  row indices beyond nnz when a later column pointer is smaller (Ap = [0 5 2]).  `Len [me] -= knt1` at the compression of AMD_2 would be wrong if a
  second compression happened for the same pivot; the proof shows that it cannot, since AMD_order leaves n free entries in Iw.
* C32/C37: dense-to-triplet copies set nz=m*n>nzmax; SLIP_matrix_check then reads out of bounds.
* C35: MPFR dense copies hold NaN instead of 0.  C38: scale lost when only the kind changes.
* C39/C42/C43: a zero (or, for MPQ, empty) matrix gets scale 0, and SLIP_LU_solve then divides by zero.
* C41: SLIP_mpq_set_si is passed an address as denominator.  C44: 2^63 as double to int64 is undefined.  C59: wrap-around, loss, and undefined for rationals in [2^63, 2^63+2^11).
* C46/C53: exhaustion while allocating the arrays of a matrix is reported as SLIP_INCORRECT_INPUT.
* C71-C74: SLIP_tripread rejects one-entry files, accepts a truncated last line and unchecked indices (out-of-bounds access) and a negative
  count (SLIP_OK with NULL); SLIP_tripread_double rejects every file; SLIP_read_dense reads junk as 0; "o 0", "t 0", "c" are refused.
* C76-C78: MATLAB interface: a NaN tolerance is accepted, an out-of-range print level and a non-string `solution` are undefined behaviour; an entry 2^63
  passes the int64 check and its cast is undefined; entries are rounded to multiples of 10^-17 (a nonsingular matrix may be called singular, a tiny
  right-hand side divides by zero); with two arguments `mexoptions.solution` is used uninitialized.
* C90: if one of AMD's allocations fails, SLIP_LU_analyze returns SLIP_OK with an S whose q is uninitialised or holds positions of entries; SLIP_LU_factorize then reports a non-singular matrix as singular (`C90_false_singular_refuted`) or reads outside the arrays of A (`C90_unsafe_refuted`).
* C64: SLIP_matrix_copy of a matrix whose array of values is NULL is rejected, but not if only the kind changes: the values are then read through NULL (`C64_copy_null_values_refuted`).
* C89: symamd_l tests the length of a column only when it reaches it (colamd.c:1250), so with decreasing column pointers it reads A past its end (`C89_decreasing_refuted`); colamd_l tests all of them first. Not reachable from SLIP_LU, which does not call symamd.
* C88: SLIP_matrix_check accepts a dense matrix with nzmax = 0 and no values at print levels 0 and 1 and dereferences NULL at level 2; a valid matrix is reported as incorrect if a string for printing cannot be allocated; the precision of "%.*Rf" is passed as uint64_t instead of int (undefined in C).
* C86: without the option check, SLIP_LU_solve called with factors of another matrix of the same size returns SLIP_OK and a wrong solution (`C86_unchecked_refuted`).
* C85: SLIP_LU_factorize accepts a column that lists a row twice and uses the last value; the final check of SLIP_LU_solve adds the values up (`C85_duplicates_seen`).
* C84: SLIP_backslash.m compares option.solution as a MATLAB string, the mex function as a C string: "vpa" followed by char(0) is accepted and gives strings.
* C83: SLIP_matrix_allocate does not check m*n: a dense 2^32-by-2^32 matrix is undefined, in practice created with one cell and SLIP_OK. SLIP_matrix_copy of a checked 2^32-by-2^32 triplet matrix to dense runs into it.
* C48/C53: a block detached by GMP is leaked; C61: SLIP_matrix_copy ignores the status of SLIP_mpq_set.

## 4. Trusted base

* The Coq 8.16.1 kernel, including `vm_compute` (used only in the concrete examples and in refutation witnesses).
* `Print Assumptions`: every theorem named in `MANIFEST.json` is "Closed under the global context" (`ASSUMPTIONS.txt`, regenerated by
  `tools/assumptions.sh`).  `coqchk`/`vcheck` additionally list `Coq.ssr.ssrunder.Under_rel.*`: fields of a sealed module inside Coq's own
  standard library, loaded through `Setoid`; no theorem here depends on them.
  No axiom, no functor, no module type, no admitted proof, no kernel check switched off.
* Only the Coq standard library is imported.
* The reading of the C code, i.e. that the models say what the C code does; in particular the simplifications below.

### Modelled
All of `SLIP_LU/Source/*.c`, `SLIP_LU/MATLAB/*.c`, `COLAMD/Source/colamd.c` (colamd_l, symamd_l, colamd_l_recommended, not the report functions), `AMD/Source/amd_{order,valid,preprocess,aat,1,2,postorder,post_tree}.c` and the parts of `SLIP_LU/Include/SLIP_LU.h`, `slip_internal.h`, `SuiteSparse_config.c` they use
(macros SLIP_CHECK, SLIP_FREE, SLIP_REQUIRE, defaults).

### Not modelled, or simplified
* In MDemo: `%lf` and `atof` are arbitrary functions; output and timing are left out; reading errors other than end of file do not occur.
* In MMex: printing and the release of memory are left out; of the `.m` files SLIP_backslash.m is modelled (MMatlab; vpa itself is not), SLIP_demo.m, SLIP_test.m, SLIP_install.m are not; fields that are empty arrays of a class other than char do not occur.
* The makefiles, the test programs (Tcov), the conversion of numbers to text by printf and mpfr_asprintf (what is printed when is modelled: MPrint).
* GMP and MPFR arithmetic is trusted: `mpz_t` is `Z`, `mpq_t` is `Q` with GMP's contract (canonical, positive denominator) checked
  where the code could break it; `mpfr_t` is an arbitrary-precision float with unbounded exponent range.
* Numbers in a double array are arbitrary floats `m*2^e`, so theorems about conversions *from* double hold a fortiori for IEEE doubles;
  conversions *to* double produce IEEE doubles (`dbl_q`: subnormals, overflow), with GMP's documented truncation and overflow to infinity.
* `int64_t` is `Z`, except in casts (C44, C59), in the size computations (C50, C68), in MInt64 and MInt64b (C83) and where stated.
* In AMD the dense-row threshold (floating point) is an arbitrary integer, integers are unbounded (except the hash, reduced modulo n as in C), statistics other
  than AMD_LNZ are not modelled, AMD_LNZ (summed in double) is the exact integer, and the six arrays carved out of the workspace S are separate arrays.
  In COLAMD, the dense-row and dense-column thresholds (the
  only floating-point computation) are arbitrary integers, integers are unbounded (except the hash, which is reduced modulo n+1 as in C),
  statistics (`stats`) are not modelled, and the Row/Col structures carved out of the workspace are separate arrays of the same sizes.
* `qsort` in slip_sort_xi is an insertion sort by the same key (trusted: qsort sorts; keys are distinct).
* In the value models memory suffices.  In MRes, values are abstracted: every test on data may go either way, which can only add
  behaviours.  In C62 the program does not alias objects (it does not free an object while another handle denotes it).
* Uninitialized memory is an arbitrary (parameter) value: `junk`, `env`.
* No concurrency: the library is documented as not thread safe.

## 5. Tests of the theorems against wrong programs

`tools/mutate.py` applies an edit to a scratch copy of the model, rebuilds, and records which theorems stop proving; it tells an
edit that only breaks a proof script from one that makes a claim false as far as `seeded/probes/ProbeLU.v.txt` can see (that file
evaluates the claims C01-C26 on concrete inputs).  The results are in `seeded/LOG.jsonl`.

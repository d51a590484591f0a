{
"f01": {
"falsified": [
"C01",
"C02",
"C04",
"C05",
"C06",
"C08",
"C09",
"C12",
"C16",
"C17",
"C18",
"C19",
"C20",
"C22",
"C23",
"C24",
"C26"
]
},
"f02": {
"falsified": [
"C01",
"C02",
"C05",
"C06",
"C08",
"C12",
"C16",
"C17",
"C18",
"C19",
"C20",
"C22",
"C23",
"C26"
]
},
"f05": {
"falsified": [
"C01",
"C02",
"C05",
"C06",
"C08",
"C09",
"C10",
"C11",
"C12",
"C13",
"C14",
"C16",
"C17",
"C18",
"C19",
"C20",
"C22",
"C23",
"C26"
]
},
"f06": {
"falsified": [
"C01",
"C02",
"C04",
"C05",
"C06",
"C08",
"C09",
"C10",
"C11",
"C12",
"C13",
"C14",
"C16",
"C17",
"C18",
"C19",
"C20",
"C22",
"C23",
"C24",
"C26"
]
},
"f07": {
"falsified": [
"C01",
"C05",
"C06",
"C08",
"C09",
"C16",
"C18",
"C19",
"C20",
"C22",
"C23",
"C26"
]
},
"f08": {
"falsified": [
"C01",
"C05",
"C08",
"C09",
"C18",
"C19",
"C22",
"C26"
]
},
"f09": {
"falsified": [
"C02",
"C04",
"C16",
"C17",
"C18",
"C19",
"C22",
"C24",
"C26"
]
},
"f10": {
"falsified": [
"C01",
"C02",
"C04",
"C05",
"C08",
"C16",
"C17",
"C18",
"C19",
"C20",
"C22",
"C23",
"C24",
"C26"
]
},
"f11": {
"falsified": [
"C01",
"C02",
"C04",
"C05",
"C08",
"C09",
"C16",
"C17",
"C18",
"C19",
"C20",
"C22",
"C23",
"C24",
"C26"
]
},
"f12": {
"falsified": [
"C01",
"C02",
"C04",
"C05",
"C08",
"C09",
"C16",
"C17",
"C18",
"C19",
"C20",
"C22",
"C23",
"C24",
"C26"
]
},
"f13": {
"falsified": [
"C01",
"C02",
"C04",
"C05",
"C08",
"C09",
"C16",
"C17",
"C18",
"C19",
"C20",
"C22",
"C23",
"C24",
"C26"
]
},
"f14": {
"falsified": [
"C01",
"C02",
"C04",
"C05",
"C08",
"C09",
"C18",
"C19",
"C20",
"C22",
"C23",
"C24",
"C26"
]
},
"f15": {
"falsified": [
"C01",
"C02",
"C04",
"C05",
"C08",
"C09",
"C16",
"C17",
"C18",
"C19",
"C20",
"C22",
"C23",
"C24",
"C26"
]
},
"f17": {
"falsified": [
"C01",
"C02",
"C04",
"C05",
"C08",
"C09",
"C16",
"C17",
"C18",
"C19",
"C20",
"C22",
"C23",
"C24",
"C26"
]
},
"f18": {
"falsified": [
"C01",
"C02",
"C04",
"C05",
"C08",
"C09",
"C16",
"C17",
"C18",
"C19",
"C20",
"C22",
"C23",
"C24",
"C26"
]
},
"f19": {
"falsified": [
"C01",
"C05",
"C08",
"C09",
"C18",
"C19",
"C22",
"C26"
]
},
"f20": {
"falsified": [
"C01",
"C02",
"C04",
"C05",
"C08",
"C09",
"C16",
"C17",
"C18",
"C19",
"C20",
"C22",
"C23",
"C24",
"C26"
]
},
"f21": {
"falsified": [
"C01",
"C05",
"C06",
"C08",
"C12",
"C13",
"C19",
"C20",
"C22",
"C23",
"C26"
]
},
"f22": {
"falsified": [
"C01",
"C02",
"C04",
"C06",
"C10",
"C12",
"C13",
"C15",
"C16",
"C17",
"C18",
"C19",
"C20",
"C22",
"C23",
"C24",
"C26"
]
},
"f23": {
"falsified": [
"C01",
"C02",
"C04",
"C05",
"C06",
"C08",
"C09",
"C10",
"C12",
"C13",
"C15",
"C16",
"C17",
"C18",
"C19",
"C20",
"C22",
"C23",
"C24",
"C26"
]
},
"f24": {
"falsified": [
"C10",
"C12",
"C13"
]
},
"f25": {
"falsified": [
"C10",
"C12",
"C13"
]
},
"f26": {
"falsified": [
"C10",
"C12",
"C13"
]
},
"f27": {
"falsified": [
"C02",
"C11",
"C14",
"C15",
"C19",
"C26"
]
},
"f28": {
"falsified": [
"C01",
"C02",
"C06",
"C11",
"C14",
"C15",
"C20",
"C22",
"C23",
"C26"
]
},
"f29": {
"falsified": [
"C02",
"C12",
"C15",
"C26"
]
},
"f30": {
"falsified": [
"C13",
"C14"
]
},
"f31": {
"falsified": [
"C13"
]
},
"f32": {
"falsified": [
"C01",
"C02",
"C05",
"C06",
"C08",
"C12",
"C15",
"C19",
"C20",
"C22",
"C23",
"C26"
]
},
"f33": {
"falsified": [
"C11"
]
},
"f34": {
"falsified": [
"C01",
"C02",
"C04",
"C05",
"C06",
"C07",
"C08",
"C09",
"C12",
"C13",
"C16",
"C17",
"C18",
"C19",
"C20",
"C22",
"C23",
"C24",
"C26"
]
},
"f35": {
"falsified": [
"C01",
"C02",
"C04",
"C05",
"C06",
"C07",
"C08",
"C12",
"C16",
"C17",
"C18",
"C19",
"C20",
"C22",
"C23",
"C24",
"C26"
]
},
"f36": {
"falsified": [
"C01",
"C02",
"C04",
"C05",
"C06",
"C08",
"C09",
"C10",
"C11",
"C12",
"C13",
"C14",
"C16",
"C17",
"C18",
"C19",
"C20",
"C22",
"C23",
"C24",
"C26"
]
},
"f37": {
"falsified": [
"C01",
"C02",
"C04",
"C05",
"C06",
"C08",
"C09",
"C16",
"C17",
"C18",
"C19",
"C20",
"C22",
"C23",
"C24",
"C26"
]
},
"f38": {
"falsified": [
"C01",
"C05",
"C06",
"C19",
"C20",
"C22",
"C23",
"C26"
]
},
"f39": {
"falsified": [
"C05",
"C06",
"C10",
"C11",
"C12",
"C13",
"C14"
]
},
"f40": {
"falsified": [
"C02",
"C04",
"C19",
"C24",
"C26"
]
},
"f41": {
"falsified": [
"C02",
"C04",
"C19",
"C24",
"C26"
]
},
"f42": {
"falsified": [
"C01",
"C02",
"C05",
"C06",
"C08",
"C09",
"C10",
"C11",
"C12",
"C13",
"C14",
"C18",
"C19",
"C20",
"C22",
"C23",
"C26"
]
},
"f43": {
"falsified": [
"C05",
"C06",
"C10",
"C11",
"C12",
"C13",
"C14"
]
},
"f44": {
"falsified": [
"C01",
"C05",
"C06",
"C10",
"C11",
"C12",
"C13",
"C14",
"C19",
"C20",
"C22",
"C23",
"C26"
]
},
"f45": {
"falsified": [
"C01",
"C05",
"C08",
"C12",
"C13",
"C14",
"C19",
"C22",
"C26"
]
},
"f46": {
"falsified": [
"C02",
"C19",
"C26"
]
},
"f47": {
"falsified": [
"C02",
"C04",
"C16",
"C17",
"C18",
"C19",
"C24",
"C26"
]
},
"s01": {
"falsified": [
"C01",
"C19",
"C22",
"C26"
]
},
"s02": {
"falsified": [
"C01",
"C19",
"C20",
"C22",
"C23",
"C26"
]
},
"s03": {
"falsified": [
"C01",
"C19",
"C20",
"C22",
"C23",
"C26"
]
},
"s04": {
"falsified": [
"C01",
"C19",
"C20",
"C22",
"C23",
"C26"
]
},
"s05": {
"falsified": [
"C01",
"C19",
"C20",
"C22",
"C23",
"C26"
]
},
"s07": {
"falsified": [
"C01",
"C19",
"C22",
"C26"
]
},
"s08": {
"falsified": [
"C01",
"C19",
"C20",
"C22",
"C23",
"C26"
]
},
"s09": {
"falsified": [
"C01",
"C19",
"C20",
"C22",
"C23",
"C26"
]
},
"s10": {
"falsified": [
"C01",
"C19",
"C20",
"C22",
"C23",
"C26"
]
},
"s11": {
"falsified": [
"C01",
"C19",
"C22",
"C26"
]
},
"s12": {
"falsified": [
"C01",
"C19",
"C22",
"C26"
]
},
"s13": {
"falsified": [
"C01",
"C19",
"C20",
"C22",
"C23",
"C26"
]
},
"s14": {
"falsified": [
"C22"
]
},
"s15": {
"falsified": [
"C22"
]
},
"s16": {
"falsified": [
"C01",
"C22"
]
},
"s17": {
"falsified": [
"C01",
"C23",
"C26"
]
},
"s18": {
"falsified": [
"C01",
"C23",
"C26"
]
},
"s19": {
"falsified": [
"C01",
"C19",
"C20",
"C22",
"C23",
"C26"
]
},
"s20": {
"falsified": [
"C01",
"C19",
"C20",
"C22",
"C23",
"C26"
]
},
"s21": {
"falsified": [
"C22"
]
},
"s22": {
"falsified": [
"C01",
"C19",
"C22",
"C26"
]
},
"a01": {
"falsified": [
"C02",
"C22",
"C26"
],
"tightened": [
"C64_factorize",
"C64_solve"
],
"note": "at first only the value of the handle on success was stated; C64 and C52 now fix it on every path",
"claim": "C64: outputs are NULL after an error"
},
"a02": {
"falsified": [
"C25"
],
"note": "C27 is about factorize and is not affected; C25 is"
},
"a04": {
"falsified": [
"C25",
"C26"
]
},
"a07": {
"falsified": [
"C22"
]
},
"a10": {
"falsified": [
"C10",
"C11",
"C12",
"C13",
"C14"
]
},
"f03": {
"note": "the edited program computes the same results (no test input distinguishes it): the proof is sensitive to the code, no claim is broken"
},
"f04": {
"note": "the edited program computes the same results (no test input distinguishes it): the proof is sensitive to the code, no claim is broken"
},
"s06": {
"note": "zero factors subtract zero: the results stay the same; the edited program computes the same results (no test input distinguishes it): the proof is sensitive to the code, no claim is broken",
"claim": "none"
},
"f16": {
"note": "no test input distinguishes the edit: entry k is never reached by the loop before it is pivotal"
},
"a05": {
"tightened": [
"C64_factorize",
"C64_solve",
"C64_copy"
],
"claim": "C64: solve rejects a right-hand side of the wrong dimension"
},
"a06": {
"tightened": [
"C64_factorize",
"C64_solve",
"C64_copy"
],
"claim": "C64: solve rejects a right-hand side of the wrong type"
},
"a12": {
"tightened": [
"C64_factorize",
"C64_solve",
"C64_copy"
]
},
"x48": {
"tightened": [
"C64_copy"
],
"note": "the edit survived the first time; C64_copy was added and now fails",
"claim": "C64: copy rejects an invalid type"
},
"x49": {
"tightened": [
"C64_copy"
],
"note": "the edit survived the first time; C64_copy was added and now fails",
"claim": "C64: copy rejects a NULL handle"
},
"x30": {
"note": "the edit survived the first time: no theorem spoke about MPFR to MPQ; C41_mpfr_to_mpq was added and now fails",
"tightened": [
"C41_mpfr_to_mpq"
]
},
"x39": {
"note": "broken first only through lemmas on other conversions; C63 now states the claim itself",
"tightened": [
"C63_csc_copy",
"C63_triplet_copy",
"C63_dense_copy",
"C63_values"
]
},
"x40": {
"note": "broken first only through lemmas on other conversions; C63 now states the claim itself",
"tightened": [
"C63_csc_copy",
"C63_triplet_copy",
"C63_dense_copy",
"C63_values"
],
"claim": "C63: CSC copies keep the pattern"
},
"x41": {
"note": "broken first only through lemmas on other conversions; C63 now states the claim itself",
"tightened": [
"C63_csc_copy",
"C63_triplet_copy",
"C63_dense_copy",
"C63_values"
]
},
"x42": {
"note": "broken first only through lemmas on other conversions; C63 now states the claim itself",
"tightened": [
"C63_csc_copy",
"C63_triplet_copy",
"C63_dense_copy",
"C63_values"
],
"claim": "C63: triplet copies keep the number of entries"
},
"x45": {
"note": "broken first only through lemmas on other conversions; C63 now states the claim itself",
"tightened": [
"C63_csc_copy",
"C63_triplet_copy",
"C63_dense_copy",
"C63_values"
]
},
"x46": {
"note": "broken first only through lemmas on other conversions; C63 now states the claim itself",
"tightened": [
"C63_csc_copy",
"C63_triplet_copy",
"C63_dense_copy",
"C63_values"
],
"claim": "C63: copies keep the dimensions"
},
"x27": {
"tightened": [
"C63_csc_copy",
"C63_triplet_copy",
"C63_dense_copy",
"C63_values"
]
},
"x28": {
"tightened": [
"C63_csc_copy",
"C63_triplet_copy",
"C63_dense_copy",
"C63_values"
]
},
"x29": {
"tightened": [
"C63_csc_copy",
"C63_triplet_copy",
"C63_dense_copy",
"C63_values"
],
"claim": "C63: a copy of the same kind and type has the same numbers"
},
"x61": {
"note": "C54_default_options fails too, but its file is not reached: the concrete run of LUEx.v fails first",
"tightened": [
"C54_default_options"
]
},
"x60": {
"note": "C54_default_options now also fixes the documented values",
"tightened": [
"C54_default_options"
]
},
"x62": {
"note": "repairs a defect of the code: C35_mpfr_refuted must fail"
},
"x04": {
"note": "coqc stops at the first error of a file, so the list of failed theorems is not complete"
},
"x05": {
"note": "coqc stops at the first error of a file, so the list of failed theorems is not complete"
},
"x15": {
"note": "coqc stops at the first error of a file, so the list of failed theorems is not complete"
},
"x18": {
"note": "coqc stops at the first error of a file, so the list of failed theorems is not complete"
},
"x19": {
"note": "coqc stops at the first error of a file, so the list of failed theorems is not complete"
},
"r29": {
"note": "may not change observable behaviour"
},
"r37": {
"note": "may not change observable behaviour"
},
"r47": {
"note": "may not change observable behaviour"
},
"t04": {
"note": "harmless: the cells are fresh, their denominators are 1 already"
},
"t09": {
"note": "may not change observable behaviour"
},
"t14": {
"note": "may not change observable behaviour"
},
"t15": {
"note": "may not change observable behaviour",
"claim": "C64: the handle is NULL after an error"
},
"u12": {
"note": "equivalent: the path is compressed to the root before it is followed, so the loop body runs once and the edited branch is never taken; the proof finds the same (a survivor by intent)",
"claim": "none: the edited branch is unreachable"
},
"u03": {
"note": "pfree+needed = Alen still fits, so the claim may stay true; the proof's space invariant is stated with the strict bound and stops"
},
"u14": {
"note": "the claim about valid patterns stays true; only the refutation for duplicates (C70_duplicates_refuted) depends on it"
},
"u18": {
"note": "may not change observable behaviour"
},
"u22": {
"note": "slower but harmless; the scan lemma stops"
},
"u33": {
"note": "only relevant to int overflow of marks"
},
"u23": {
"note": "marks hold first columns after garbage collection"
},
"u34": {
"note": "may not change observable behaviour"
},
"v17": {
"note": "proof script stops, but no claim becomes false: a header without numbers is then found by the first read (a harmless edit)"
},
"v37": {
"note": "proof script stops, but no claim becomes false: reading the first entry at the end of the file fails anyway (a harmless edit)"
},
"v27": {
"note": "C75_sliplu assumes that help was not asked for, so only its proof script stopped; the claim about help was missing and was added",
"tightened": [
"C75_reports"
]
},
"v30": {
"note": "C75_sliplu assumes matching sizes, so only its proof script stopped; the claim about mismatched sizes was added",
"tightened": [
"C75_reports"
]
},
"v31": {
"note": "survived at first; C75_reports was added and now fails",
"tightened": [
"C75_reports"
]
},
"v39": {
"note": "survived at first; C71_null was added and now fails",
"tightened": [
"C71_null"
]
},
"v40": {
"note": "survived at first; C72_null was added and now fails",
"tightened": [
"C72_null"
]
},
"c11": {
"note": "harmless: no memory is gained, but the garbage collection still leaves a correct structure; only the proof of independence of fresh memory (C81) follows the code so closely that it fails"
},
"c08": {
"note": "harmless: the fields of the structure are all set before use"
},
"x11": {
"note": "harmless: another default ordering in the example program, the same answer"
},
"z1100": {
"note": "harmless: another tolerance in the example program, the same answer"
},
"y21": {
"note": "survived: no theorem spoke of a matrix without values; SLIP_matrix_copy of such a matrix is now covered",
"tightened": [
"C64_copy_null_values",
"C64_copy_null_values_refuted"
]
},
"t06": {
"note": "harmless: checked again by the caller"
},
"q03": {
"note": "harmless: NaN is rejected by the test for an integer already"
},
"k14": {
"note": "survived: the theorem did not say that reallocation keeps the contents",
"tightened": [
"C48_reallocate"
]
},
"g05": {
"note": "survived: the names of the wrapped functions were not tied to the calls",
"tightened": [
"C69_names"
]
},
"q07": {
"note": "survived: the default values were not stated",
"tightened": [
"C76_default_tolerance",
"C76_defaults"
]
},
"q13": {
"note": "survived: strings with embedded zeros were not covered",
"tightened": [
"C76_strings"
]
},
"d09": {
"note": "harmless: the files in question are rejected with and without the edit"
},
"r03": {
"note": "the edit weakens the checker itself, not the program"
},
"z1009": {
"note": "limit of the resource model: it does not distinguish a number set to 0 from an initialised one"
},
"z1025": {
"note": "limit of the resource model: it does not distinguish a number set to 0 from an initialised one"
},
"z1013": {
"note": "harmless: both n - top and n + top fit into 64 bits"
},
"z1018": {
"note": "harmless: nzmax of rhos differs only for n = 0"
},
"z1041": {
"note": "harmless: only the fuel of the model is changed"
},
"sy07": {
"note": "harmless: after an overflow the sum has been set to 0 already, so the last test is redundant"
},
"sy08": {
"note": "harmless for the user; fails only the exact refinement"
},
"sy16": {
"note": "harmless for the user; fails only the exact refinement"
},
"sy25": {
"note": "harmless for the user; fails only the exact refinement"
},
"w01": {
"note": "coqc stops at an example further up in the file; C76_strings, below it, states that 255 characters are read"
},
"z1038": {
"note": "C54_default_options fails too, but its file is not reached: the concrete run of LUEx.v fails first",
"tightened": [
"C54_default_options"
]
}
}
{
 "claims": [
  {
   "property": "C01",
   "status": "proved",
   "theorems": [
    "C01_matrix_layout_bijection"
   ],
   "note": "Row/column-major, dense and strided; both build profiles."
  },
  {
   "property": "C02",
   "status": "partial",
   "theorems": [
    "C02_vector_position_refuted",
    "C02_vector_position_exact_partial",
    "C02_vector_round_trip_partial"
   ],
   "note": "Refuted as stated: the coordinates are (1,i)/(i,1), never in range. Round trip proved."
  },
  {
   "property": "C03",
   "status": "proved",
   "theorems": [
    "C03_upper_triangular_storage",
    "C03_huge_count_refuted"
   ],
   "note": "Proved for every n whose storage can be allocated (n(n+1)/2 <= isize::MAX); beyond that number_of_elements overflows (witness)."
  },
  {
   "property": "C04",
   "status": "partial",
   "theorems": [
    "C04_exact_partial",
    "C04_index_partial",
    "C04_cast_partial",
    "C04_large_refuted",
    "C04_witness_refuted"
   ],
   "note": "Holds if and only if n < 2^27 (proved both ways); the smallest failing matrix dimension is 2^27. Uses the axioms of the standard library reals."
  },
  {
   "property": "C05",
   "status": "proved",
   "theorems": [
    "C05_raw_index",
    "C05_get_get1d"
   ],
   "note": "Raw indices of every layout; get/get1d and set/set1d of every sound matrix or expression."
  },
  {
   "property": "C06",
   "status": "partial",
   "theorems": [
    "C06_stride_partial",
    "C06_no_stride_partial",
    "C06_strided_matrix_refuted",
    "C06_witness_refuted"
   ],
   "note": "Holds for dense and vector layouts; refuted for the strided matrix layouts, whose stride() returns the dense strides."
  },
  {
   "property": "C07",
   "status": "partial",
   "theorems": [
    "C07_first_entry_partial",
    "C07_upper_triangular_refuted"
   ],
   "note": "Holds for all layouts but the upper triangular one, whose (0,0) entry lives at n(n-1)/2."
  },
  {
   "property": "C08",
   "status": "proved",
   "theorems": [
    "C08_distinct_cells_dense",
    "C08_distinct_cells_strided"
   ],
   "note": "Dense, vector, triangular; strided under separation of strides."
  },
  {
   "property": "C09",
   "status": "proved",
   "theorems": [
    "C09_checked_read",
    "C09_checked_write"
   ],
   "note": "For every sound matrix or expression (every entry has a cell in its container), both build profiles. C10, C13, C17, C24 say which constructors give sound matrices."
  },
  {
   "property": "C10",
   "status": "partial",
   "theorems": [
    "C10_no_foreign_access_partial",
    "C10_strided_sufficient_partial",
    "C10_strided_exact_partial",
    "C10_strided_criterion_partial",
    "C10_last_entry_partial",
    "C10_strided_refuted",
    "C10_witness_refuted"
   ],
   "note": "Proved for dense, vector and triangular layouts in overflow-checked builds; with user strides the exact outcome of every read and write; refuted for user-chosen strides, which from_data does not check."
  },
  {
   "property": "C11",
   "status": "proved",
   "theorems": [
    "C11_last_write"
   ],
   "note": "Any history of write statements, panicking ones included."
  },
  {
   "property": "C12",
   "status": "proved",
   "theorems": [
    "C12_one_cell"
   ],
   "note": "Every sound matrix, both build profiles."
  },
  {
   "property": "C13",
   "status": "partial",
   "theorems": [
    "C13_zeros",
    "C13_mat_macro",
    "C13_triangular_zeros",
    "C13_others_unchanged",
    "C13_release_exact_partial",
    "C13_release_refuted"
   ],
   "note": "Proved whenever the bytes can be allocated (both profiles); too large requests panic with overflow checks, refuted without."
  },
  {
   "property": "C14",
   "status": "partial",
   "theorems": [
    "C14_vectors_partial",
    "C14_vector_macro",
    "C14_column_from_dimension_refuted"
   ],
   "note": "All constructors proved; ColumnVector::from_dimension refuted (it checks the wrong component)."
  },
  {
   "property": "C15",
   "status": "partial",
   "theorems": [
    "C15_fixed_sizes_partial",
    "C15_instances",
    "C15_histories_partial",
    "C15_from_data_refuted",
    "C15_history_refuted"
   ],
   "note": "All fixed-size constructors proved; along histories the sizes are right exactly if every from_data that returned got a layout of the stated size. Refuted for from_data, which ignores RS and CS."
  },
  {
   "property": "C16",
   "status": "proved",
   "theorems": [
    "C16_slices"
   ],
   "note": "All containers and all ranges."
  },
  {
   "property": "C17",
   "status": "proved",
   "theorems": [
    "C17_block"
   ],
   "note": "Dense parents; both profiles."
  },
  {
   "property": "C18",
   "status": "proved",
   "theorems": [
    "C18_block_mut"
   ],
   "note": "Dense parents; both profiles."
  },
  {
   "property": "C19",
   "status": "partial",
   "theorems": [
    "C19_nested_block_partial",
    "C19_nested_block_refuted"
   ],
   "note": "Refuted as stated, with the exact characterisation: a nested block equals the composed block if and only if it has a single row or the intermediate block has the full width of its parent (rows and columns swapped for column-major). Nested blocks are always memory-sound."
  },
  {
   "property": "C20",
   "status": "partial",
   "theorems": [
    "C20_checked_partial",
    "C20_checked_exact_partial",
    "C20_empty_block_refuted",
    "C20_release_partial",
    "C20_release_empty_partial",
    "C20_release_refuted"
   ],
   "note": "With overflow checks the exact outcome of every request is proved; an empty block past the end computes an out-of-bounds pointer, and release builds accept wrapped requests."
  },
  {
   "property": "C21",
   "status": "proved",
   "theorems": [
    "C21_split"
   ],
   "note": "Every interior split point, both build profiles."
  },
  {
   "property": "C22",
   "status": "proved",
   "theorems": [
    "C22_independent_writes"
   ],
   "note": "Any history of writes through the four quarters."
  },
  {
   "property": "C23",
   "status": "partial",
   "theorems": [
    "C23_disjoint_partial",
    "C23_overlap_refuted",
    "C23_witness_refuted"
   ],
   "note": "Refuted: the four exposed slices are pairwise disjoint if and only if the matrix has two rows (and is split after the first one). The entries of the four blocks are disjoint (C22)."
  },
  {
   "property": "C24",
   "status": "partial",
   "theorems": [
    "C24_from_pointer_partial",
    "C24_from_pointer_dense",
    "C24_release_exact_partial",
    "C24_release_refuted"
   ],
   "note": "Full statement proved with overflow checks and for requests that do not wrap; release wrap refuted."
  },
  {
   "property": "C25",
   "status": "proved",
   "theorems": [
    "C25_expressions"
   ],
   "note": "Any depth; arbitrary scalar arithmetic."
  },
  {
   "property": "C26",
   "status": "partial",
   "theorems": [
    "C26_eval_partial",
    "C26_column_vector_refuted",
    "C26_witness_refuted"
   ],
   "note": "Proved except for dynamically sized column vectors, for which eval panics (refuted)."
  },
  {
   "property": "C27",
   "status": "proved",
   "theorems": [
    "C27_sums",
    "C27_scalar_products"
   ],
   "note": "All combinations of owned and borrowed operands, panics included."
  },
  {
   "property": "C28",
   "status": "proved",
   "theorems": [
    "C28_add_panics"
   ],
   "note": "Any two expressions."
  },
  {
   "property": "C29",
   "status": "proved",
   "theorems": [
    "C29_expression_indices"
   ],
   "note": "Any expression over sound leaves."
  },
  {
   "property": "C30",
   "status": "proved",
   "theorems": [
    "C30_for_each",
    "C30_for_each_any_layout"
   ],
   "note": "Closures with arbitrary state, panicking at any point."
  },
  {
   "property": "C31",
   "status": "proved",
   "theorems": [
    "C31_fill",
    "C31_fill_real",
    "C31_fill_complex",
    "C31_rand_mat",
    "C31_rand_vector"
   ],
   "note": "The generator is an arbitrary state transformer."
  },
  {
   "property": "C32",
   "status": "proved",
   "theorems": [
    "C32_operands",
    "C32_matmul",
    "C32_matmul_exact"
   ],
   "note": "C32_matmul holds for an arbitrary per-entry kernel; C32_matmul_exact for kernels that compute the documented formula exactly."
  },
  {
   "property": "C33",
   "status": "partial",
   "theorems": [
    "C33_only_c_partial",
    "C33_incompatible",
    "C34_destination_view_refuted"
   ],
   "note": "Proved for dense operands, vectors and views with true strides; with a strided block as C other entries of the parent are overwritten (refuted)."
  },
  {
   "property": "C34",
   "status": "partial",
   "theorems": [
    "C34_views_partial",
    "C34_views_exact_partial",
    "C34_views_as_dense",
    "C34_narrow_a_refuted",
    "C34_narrow_b_refuted",
    "C34_narrow_c_refuted",
    "C34_operand_view_refuted",
    "C34_destination_view_refuted"
   ],
   "note": "The code violates this for every block that is narrower than its parent: reported strides are those of a dense matrix. Proved for unbroken blocks; for every narrower block there are contents with a wrong product."
  },
  {
   "property": "C35",
   "status": "partial",
   "theorems": [
    "C35_dot_partial",
    "C35_dot_exact",
    "C35_release_exact_partial",
    "C35_release_refuted"
   ],
   "note": "With overflow checks fully proved; without them the result size can wrap around (refuted)."
  },
  {
   "property": "C36",
   "status": "partial",
   "theorems": [
    "C36_expressions",
    "C36_products_partial",
    "C36_views_refuted"
   ],
   "note": "Proved for expressions over any admissible layouts and for products of operands with true strides; refuted for products of strided blocks."
  },
  {
   "property": "C37",
   "status": "proved",
   "theorems": [
    "C37_calls",
    "C37_histories",
    "C37_panic_witness"
   ],
   "note": "Every call and every history of calls; no panic with overflow checks is a hypothesis of the statement (C37_panic_witness: it is needed)."
  },
  {
   "property": "C38",
   "status": "partial",
   "theorems": [
    "C38_histories_partial",
    "C38_reads_partial",
    "C38_exact_partial",
    "C38_empty_block_refuted"
   ],
   "note": "A history of safe calls has undefined behaviour if and only if it requests an empty block inside of a matrix that starts beyond the end of the container (proved both ways); such requests exist (refuted)."
  },
  {
   "property": "C39",
   "status": "partial",
   "theorems": [
    "C39_no_wrap_partial",
    "C39_refuted"
   ],
   "note": "Proved for all histories in which no number of entries and no end of a block exceeds 2^64 - 1, blocks are non-empty and splits are interior; refuted without that bound."
  },
  {
   "property": "C40",
   "status": "proved",
   "theorems": [
    "C40_allocations",
    "C40_matrices",
    "C40_containers"
   ],
   "note": "All histories, both build profiles, unsafe calls included as long as they are defined."
  },
  {
   "property": "C41",
   "status": "partial",
   "theorems": [
    "C41_length_partial",
    "C41_histories_partial",
    "C41_base_length_refuted",
    "C41_from_data_refuted"
   ],
   "note": "Matrix::length proved for vector dimensions; BaseMatrix::length refuted."
  },
  {
   "property": "C42",
   "status": "proved",
   "theorems": [
    "C42_complex"
   ],
   "note": "Complex numbers over arbitrary real arithmetic, through the [re, im] representation the code passes."
  },
  {
   "property": "C43",
   "status": "partial",
   "theorems": [
    "C43_histories_partial",
    "C43_release_partial",
    "C43_no_wrap_partial",
    "C43_nested_block_refuted",
    "C43_product_of_block_refuted",
    "C43_empty_block_refuted",
    "C43_column_vector_refuted"
   ],
   "note": "Refinement of the abstract machine of Abstract.v, for all histories in scope, by induction over the history. In the release build for histories without panics, or, panics included, if no size exceeds 2^64 - 1. Upper triangular matrices, containers of any size and slices of whole matrices are included. Out of scope: blocks of narrower views that span several rows, products of such views, empty blocks and zeros_from_dim of column vectors (the code deviates there, four witnesses), products whose result overlaps an operand, slices of blocks, matrices made from slices and raw pointers. The gemm routine is any function of the sizes and data."
  },
  {
   "property": "C44",
   "status": "proved",
   "theorems": [
    "C44_split_points"
   ],
   "note": "Overflow-checked build."
  },
  {
   "property": "C45",
   "status": "proved",
   "theorems": [
    "C45_contracts"
   ],
   "note": "All histories; the release build if no size exceeds 2^64 - 1, blocks are non-empty and splits interior. C45_outside_contract shows undefined behaviour one entry outside of the contract."
  },
  {
   "property": "C46",
   "status": "proved",
   "theorems": [
    "C46_same_histories",
    "C46_safe_histories"
   ],
   "note": "All histories within their contracts in which no size exceeds 2^64 - 1, blocks are non-empty and splits interior."
  },
  {
   "property": "C47",
   "status": "proved",
   "theorems": [
    "C47_reference",
    "C47_tests_pass",
    "C47_strides_needed"
   ],
   "note": "Exact arithmetic: any commutative semiring and a kernel that computes its formula. C47_strides_needed shows that true strides are needed for agreement with matmul. The other unit tests and the documentation examples are run on the model as Examples in Properties_Tests.v."
  },
  {
   "property": "C48",
   "status": "partial",
   "theorems": [
    "C48_histories_partial",
    "C48_splits_partial",
    "C48_containers_partial",
    "C48_entries_partial",
    "C48_slice_refuted",
    "C48_nested_block_refuted",
    "C48_product_refuted"
   ],
   "note": "Proved for all admitted histories without split_in_four_mut, and with it for histories in which parts of a split are not used for slices, products or blocks of several rows where stride() is not truthful. The three exceptions are refuted by safe programs: they write into another quarter."
  },
  {
   "property": "C49",
   "status": "partial",
   "theorems": [
    "C49_histories_partial",
    "C49_splits_partial",
    "C49_refuted"
   ],
   "note": "Same scope as C48. The witness is a safe program in which a read-only block changes while it is borrowed."
  },
  {
   "property": "C50",
   "status": "proved",
   "theorems": [
    "C50_owner"
   ],
   "note": "All admitted histories without raw pointers. C50_pointers_needed: with from_pointer a matrix outlives its memory."
  },
  {
   "property": "C51",
   "status": "partial",
   "theorems": [
    "C51_products_partial",
    "C51_containers_partial",
    "C51_slice_refuted"
   ],
   "note": "Same scope as C48. The witness: a slice of a quarter made into a matrix aliases the next quarter."
  },
  {
   "property": "C52",
   "status": "proved",
   "theorems": [
    "C52_computations",
    "C52_laws",
    "C52_exact_needed"
   ],
   "note": "Operands of products report true strides (C34), evaluated results are not dynamic column vectors of more than one entry (C26). C52_exact_needed: with rounding arithmetic associativity fails."
  },
  {
   "property": "C53",
   "status": "partial",
   "theorems": [
    "C53_slices_partial",
    "C53_strided_partial",
    "C53_strided_exact_partial",
    "C53_blocks_exact_partial",
    "C53_block_refuted",
    "C53_narrow_refuted"
   ],
   "note": "Proved for layouts without strides; with strides it holds for all contents exactly if the entries are consecutive in memory, for blocks exactly if they are unbroken. Every narrower block has contents for which it fails."
  },
  {
   "property": "C54",
   "status": "proved",
   "theorems": [
    "C54_invisible",
    "C54_safe",
    "C54_freed_once",
    "C54_no_leak",
    "C54_allocations"
   ],
   "note": "All admitted histories without raw pointers. C54_pointers_needed: with from_pointer freed memory is read."
  },
  {
   "property": "C55",
   "status": "proved",
   "theorems": [
    "C55_alone",
    "C55_ub",
    "C55_order",
    "C55_apart",
    "C55_races",
    "C55_handed"
   ],
   "note": "A call is one step of a schedule; C55_races shows that calls of different threads have no cell in common that one of them writes. C55_apart_needed: quarters of split_in_four_mut, whose containers overlap, do interfere through slices."
  },
  {
   "property": "C56",
   "status": "partial",
   "theorems": [
    "C56_alone_partial",
    "C56_order_partial",
    "C56_writes_partial",
    "C56_slice_refuted",
    "C56_nested_block_refuted",
    "C56_product_refuted"
   ],
   "note": "Proved for all safe calls except slices, blocks of several rows of a quarter and products with quarters as operands; for each of these a witness shows that the code violates the property."
  },
  {
   "property": "C57",
   "status": "partial",
   "theorems": [
    "C57_steps_partial",
    "C57_panels_partial",
    "C57_inner_partial",
    "C57_tiles_refuted"
   ],
   "note": "Proved for blocks whose entries are consecutive in memory; missing are narrower blocks, for which the code violates the property (C57_tiles_refuted, cause in C34)."
  },
  {
   "property": "C58",
   "status": "proved",
   "theorems": [
    "C58_same",
    "C58_blocked_same",
    "C58_stride",
    "C58_block",
    "C58_nested",
    "C58_matmul",
    "C58_steps",
    "C58_inner"
   ],
   "note": "A statement about the library with two functions changed; C58_same ties it to the model of the code."
  },
  {
   "property": "C59",
   "status": "proved",
   "theorems": [
    "C59_admitted",
    "C59_single",
    "C59_after",
    "C59_readers"
   ],
   "note": "About the run-time reading of the ownership rules in Borrow.v: every execution of a compiled program is such a history. The static borrow checker may refuse more, which is not modelled."
  },
  {
   "property": "C60",
   "status": "proved",
   "theorems": [
    "C60_alone",
    "C60_races",
    "C60_ub",
    "C60_finishes",
    "C60_calls",
    "C60_sequential",
    "C60_orders",
    "C60_plain",
    "C60_writes",
    "C60_apart_needed",
    "C60_plain_needed"
   ],
   "note": "Sequentially consistent interleaving of single accesses. Hypotheses: disjoint containers as in C55, products whose C shares no cell with A or B, and a gemm routine that keeps to the entries of its arguments (C60_orders: any order of entries qualifies)."
  },
  {
   "property": "C61",
   "status": "partial",
   "theorems": [
    "C61_safe_partial",
    "C61_alone_partial",
    "C61_finishes_partial",
    "C61_calls_partial",
    "C61_slice_refuted",
    "C61_nested_block_refuted",
    "C61_product_refuted"
   ],
   "note": "The code violates it: the slice of a quarter, a block of several rows of it and a product stored in it race with accesses to other quarters (three witnesses, each a reachable state with a race). Proved for all other calls, under every schedule of single accesses."
  },
  {
   "property": "C62",
   "status": "proved",
   "theorems": [
    "C62_same",
    "C62_wider",
    "C62_histories",
    "C62_release",
    "C62_scope_needed"
   ],
   "note": "A statement about the library with two functions changed; C62_same ties it to the model of the code. C62_scope_needed shows that the remaining conditions are needed."
  },
  {
   "property": "C63",
   "status": "proved",
   "theorems": [
    "C63_safe",
    "C63_same_builds",
    "C63_conservative",
    "C63_refines",
    "C63_checks_needed"
   ],
   "note": "A statement about the library with four checks added and two functions changed (Guarded.v). Memory safety in the sense of UB in the model: bounds of the memory a pointer was derived from, not the aliasing rules. C63_checks_needed: without each check there is a history with undefined behaviour."
  },
  {
   "property": "C64",
   "status": "proved",
   "theorems": [
    "C64_computations",
    "C64_float_laws",
    "C64_complex_laws",
    "C64_exact_sums",
    "C64_other_laws_needed"
   ],
   "note": "All NaNs are identified. The gemm routine is any function of sizes and data. C64_other_laws_needed has a counterexample for each of the other laws of C52."
  },
  {
   "property": "C65",
   "status": "proved",
   "theorems": [
    "C65_access",
    "C65_unchecked",
    "C65_sum",
    "C65_products",
    "C65_block",
    "C65_split",
    "C65_equality",
    "C65_conditions_needed"
   ],
   "note": "Any scalar type with any ==; for f32 and f64 C65_equality says that only NaN differs from itself. Blocks non-empty, and corner of the block below 2^64 (otherwise C20 applies)."
  },
  {
   "property": "C66",
   "status": "proved",
   "theorems": [
    "C66_methods",
    "C66_same_methods",
    "C66_returns",
    "C66_programs",
    "C66_until_panic",
    "C66_complete"
   ],
   "note": "Signatures of all methods of the API; lifetimes and moves are the subject of C48 to C59. The lengths of arrays are part of the types."
  },
  {
   "property": "C67",
   "status": "proved",
   "theorems": [
    "C67_model_access",
    "C67_model_operators",
    "C67_model_eval",
    "C67_model_base",
    "C67_model_matmul",
    "C67_crate",
    "C67_crate_containers",
    "C67_reads",
    "C67_outside",
    "C67_base",
    "C67_shown",
    "C67_writes",
    "C67_expressions",
    "C67_sum_dimensions",
    "C67_eval",
    "C67_for_each",
    "C67_product",
    "C67_slices",
    "C67_safety_exact",
    "C67_contract_needed"
   ],
   "note": "Methods of the traits are functions of receiver and memory (no interior mutability). C67_contract_needed shows that the contract is needed."
  },
  {
   "property": "C68",
   "status": "proved",
   "theorems": [
    "C68_arithmetic",
    "C68_range",
    "C68_fused",
    "C68_formulas",
    "C68_formulas_finite",
    "C68_kernels",
    "C68_in_order",
    "C68_fused_kernel",
    "C68_blocked",
    "C68_any_order",
    "C68_in_order_safe",
    "C68_matmul",
    "C68_computations",
    "C68_expressions",
    "C68_agreement",
    "C68_relative_needed"
   ],
   "note": "The gemm routine is any function of sizes and data that computes a formula for each entry. Uses the real numbers of the standard library and their axioms. C68_relative_needed: with cancellation two orders give 0 and 1."
  },
  {
   "property": "C69",
   "status": "proved",
   "theorems": [
    "C69_lazy",
    "C69_get",
    "C69_get1d",
    "C69_unchecked",
    "C69_set",
    "C69_eval",
    "C69_eval_rejected",
    "C69_counts",
    "C69_for_each",
    "C69_matmul",
    "C69_dot",
    "C69_allocations",
    "C69_calls"
   ],
   "note": "The order of the accesses is that of the Rust source; the compiler may change it where no one can tell. A closure is one load and one store; the gemm routine is any that keeps to the entries of its arguments. for_each on matrices without coinciding cells."
  },
  {
   "property": "C70",
   "status": "proved",
   "theorems": [
    "C70_same",
    "C70_rejected",
    "C70_safe",
    "C70_independent",
    "C70_bytes",
    "C70_no_leak",
    "C70_products",
    "C70_plain",
    "C70_safe_needed",
    "C70_split_needed"
   ],
   "note": "Products with an entry of C in A or B are left out by hypothesis; C70_products proves it for safe histories without split_in_four_mut, C70_split_needed shows that it is needed with it. An array that is moved keeps its address."
  },
  {
   "property": "C71",
   "status": "partial",
   "theorems": [
    "C71_traced",
    "C71_held",
    "C71_accesses",
    "C71_reads",
    "C71_makes",
    "C71_frees",
    "C71_apart_partial",
    "C71_no_split_partial",
    "C71_two_rows",
    "C71_split_exact",
    "C71_rows_exact",
    "C71_rules",
    "C71_rules_split",
    "C71_exclusive",
    "C71_read_only",
    "C71_split_refuted",
    "C71_pointer_needed"
   ],
   "note": "Proved for histories whose splits have parts in separate memory ranges; false with other splits (C71_split_refuted: zeros, split, get). C71_split_exact and C71_rows_exact say exactly which use of a part breaks the rules. A call reaches its whole containers; references to the Matrix structures and protectors are not modelled."
  },
  {
   "property": "C72",
   "status": "proved",
   "theorems": [
    "C72_in_use",
    "C72_defined",
    "C72_aligned",
    "C72_loads",
    "C72_stores",
    "C72_safe_needed"
   ],
   "note": "Products with an entry of C in A or B are left out by hypothesis as in C70. The stores that fill a new block are part of the allocation."
  },
  {
   "property": "C73",
   "status": "proved",
   "theorems": [
    "C73_same",
    "C73_positions",
    "C73_root",
    "C73_packed",
    "C73_from_dimension",
    "C73_zeros",
    "C73_eval",
    "C73_sizes",
    "C73_length"
   ],
   "note": "About functions that are not in the library (Corrected.v), like C58, C62 and C63."
  },
  {
   "property": "C74",
   "status": "proved",
   "theorems": [
    "C74_alone",
    "C74_defined",
    "C74_races",
    "C74_in_use",
    "C74_finishes",
    "C74_safe",
    "C74_apart_needed"
   ],
   "note": "Threads keep their matrices to the end: the only destructors are those that run when a call panics. Products with an entry of C in A or B are left out by hypothesis as in C60. Sequentially consistent memory; the load or store of an item is one step."
  },
  {
   "property": "C75",
   "status": "proved",
   "theorems": [
    "C75_refused",
    "C75_granted",
    "C75_runs",
    "C75_threads_refused",
    "C75_threads_granted",
    "C75_threads"
   ],
   "note": "The allocator is chosen after the history or schedule; the memory it gives out is never used again, so the bound counts all items ever asked for. When no memory is left the model stops, as Rust ends the process."
  },
  {
   "property": "C76",
   "status": "proved",
   "theorems": [
    "C76_alone",
    "C76_defined",
    "C76_races",
    "C76_in_use",
    "C76_free_races",
    "C76_frees_once",
    "C76_frees",
    "C76_writes",
    "C76_reads",
    "C76_leaks",
    "C76_finishes",
    "C76_races_needed"
   ],
   "note": "What each thread does alone is assumed to be defined, and owned_apart is assumed of the start (C76_owned_needed: it is needed); C77 and C78 derive it for safe programs. The destructor of a matrix is one step."
  },
  {
   "property": "C77",
   "status": "proved",
   "theorems": [
    "C77_defined",
    "C77_alone",
    "C77_races",
    "C77_in_use",
    "C77_leaks",
    "C77_ends",
    "C77_finishes",
    "C77_same",
    "C77_accepted_needed"
   ],
   "note": "Threads begin with nothing and share no matrix; for shared matrices see C74, C76 and C78. Programs with split_in_four_mut are left out as in C70. In release builds index arithmetic that wraps is left out as in C20."
  },
  {
   "property": "C78",
   "status": "proved",
   "theorems": [
    "C78_scopes",
    "C78_hands",
    "C78_apart_needed"
   ],
   "note": "The first program waits until the threads end. Programs with split_in_four_mut are left out as in C70. In release builds index arithmetic that wraps is left out as in C20. The destructor of a matrix is one step."
  },
  {
   "property": "C79",
   "status": "proved",
   "theorems": [
    "C79_after",
    "C79_join",
    "C79_moves"
   ],
   "note": "C79_join is for threads that free what they make and what was moved to them; what they own is what the program moved (owns_moved; C79_moves derives this from the condition of C78). Programs with split_in_four_mut are left out as in C70. In release builds index arithmetic that wraps is left out as in C20. How the program waits (std::thread::scope) is not part of the crate."
  },
  {
   "property": "C80",
   "status": "proved",
   "theorems": [
    "C80_alone",
    "C80_threads",
    "C80_join",
    "C80_ended_needed"
   ],
   "note": "A round in which a thread does not free what it makes or what was moved to it is not followed by another (C80_threads is for it, too). Programs with split_in_four_mut are left out as in C70. In release builds index arithmetic that wraps is left out as in C20. How the program waits (std::thread::scope) is not part of the crate."
  }
 ]
}
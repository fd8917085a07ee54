{
 "claims": [
  {
   "property": "C01",
   "status": "proved",
   "theorems": [
    "C01_dense_layout_bijection",
    "C01_dense_matrix_is_a_function"
   ],
   "note": ""
  },
  {
   "property": "C02",
   "status": "proved",
   "theorems": [
    "C02_storage_size_guard_exact",
    "C02_element_guard_exact",
    "C02_address_guard_exact"
   ],
   "note": ""
  },
  {
   "property": "C03",
   "status": "proved",
   "theorems": [
    "C03_triangular_packing",
    "C03_empty_unit_kinds",
    "C03_not_too_long_addressable",
    "C03_tall_unit_refuted",
    "C03_checked_outcome_exact",
    "C03_packed_lines_contiguous",
    "C03_size_guard_refuted",
    "C03_size_exact_below_2p32"
   ],
   "note": "All shapes below 2^32, both builds, exact outcome per position; unsound size guard at 2^32 refuted."
  },
  {
   "property": "C04",
   "status": "proved",
   "theorems": [
    "C04_triangular_matrix",
    "C04_tall_unit_write_refuted"
   ],
   "note": "All shapes below 2^32 and all histories; rejected positions characterised exactly."
  },
  {
   "property": "C05",
   "status": "proved",
   "theorems": [
    "C05_banded_matrix",
    "C05_banded_resize_out_of_bounds_refuted",
    "C05_banded_resize_loses_elements_refuted"
   ],
   "note": "Element operations proved; preserving resize of banded_matrix is refuted."
  },
  {
   "property": "C06",
   "status": "proved",
   "theorems": [
    "C06_symmetric_matrix",
    "C06_at_element_refuted"
   ],
   "note": "operator()/insert/erase/clear proved; at_element on the non-stored triangle refuted."
  },
  {
   "property": "C07",
   "status": "proved",
   "theorems": [
    "C07_hermitian_matrix",
    "C07_erase_other_triangle_rejected",
    "C07_assignment_outside_stored_triangle_throws",
    "C07_erase_element_refuted",
    "C07_diagonal_refuted"
   ],
   "note": "Restated with the two restrictions the code needs; each shown necessary by a _refuted theorem."
  },
  {
   "property": "C08",
   "status": "proved",
   "theorems": [
    "C08_dense_matrix_resize",
    "C08_matrix_resize_zero_fill_refuted",
    "C08_triangular_matrix_resize",
    "C08_unbounded_array_history",
    "C08_unbounded_array_resize_preserve",
    "C08_resize_same_size",
    "C08_array_adaptor_resize"
   ],
   "note": "Arrays (unbounded_array, bounded_array via C09, array_adaptor) and dense/triangular matrix resize; the documented zero fill of matrix::resize is refuted; banded resize refuted under C05."
  },
  {
   "property": "C09",
   "status": "proved",
   "theorems": [
    "C09_bounded_array_history",
    "C09_bounded_array_constructors",
    "C09_bounded_array_unchecked"
   ],
   "note": ""
  },
  {
   "property": "C10",
   "status": "proved",
   "theorems": [
    "C10_range_compose",
    "C10_slice_compose",
    "C10_slice_compose_range",
    "C10_empty_tail_of_reversed_slice_refuted",
    "C10_indirect_compose",
    "C10_indirect_compose_checked_safe"
   ],
   "note": "For non-empty inner selections; the empty tail of a reversed slice is refuted (checked builds throw)."
  },
  {
   "property": "C11",
   "status": "proved",
   "theorems": [
    "C11_view_read",
    "C11_view_write",
    "C11_views_share_elements",
    "C11_view_elements_distinct",
    "C11_project_of_projection",
    "C11_project_all_of_projection_refuted",
    "C11_checked_views_are_safe"
   ],
   "note": "Views of dense vectors/matrices nested to any depth. project(view, range::all()) is refuted. Proxy iterators and views of packed/sparse containers not modelled."
  },
  {
   "property": "C12",
   "status": "proved",
   "theorems": [
    "C12_map_array_history",
    "C12_map_array_push_back_order"
   ],
   "note": ""
  },
  {
   "property": "C13",
   "status": "proved",
   "theorems": [
    "C13_assignment_copies",
    "C13_map_array_copy_constructor_refuted",
    "C13_copying_destroys_source_refuted"
   ],
   "note": "operator= proved; the copy constructor passes uninitialized_copy's ranges reversed (refuted for every source)."
  },
  {
   "property": "C14",
   "status": "proved",
   "theorems": [
    "C14_compressed_vector_history",
    "C14_compressed_vector_rejects",
    "C14_reserve_below_nnz_drops_refuted",
    "C14_insert_out_of_range_on_full_refuted",
    "C14_insert_own_element_refuted"
   ],
   "note": "Histories of all listed operations proved. Side claims refuted: reserve below nnz, insert_element out of range on a full vector (UB in checked builds), insert_element of an own element."
  },
  {
   "property": "C15",
   "status": "proved",
   "theorems": [
    "C15_coordinate_vector_history",
    "C15_coordinate_vector_rejects",
    "C15_nonpreserving_resize_throws_refuted"
   ],
   "note": "history refinement, rejections; the non-preserving resize defect is stated as a _refuted theorem"
  },
  {
   "property": "C16",
   "status": "proved",
   "theorems": [
    "C16_vector_inplace_merge",
    "C16_matrix_inplace_merge"
   ],
   "note": "vector and matrix merge"
  },
  {
   "property": "C17",
   "status": "proved",
   "theorems": [
    "C17_pop_back",
    "C17_pop_only_element_throws_refuted",
    "C17_pop_unsorted_loses_element_refuted"
   ],
   "note": "proved for sorted vectors with >= 2 elements (or unchecked builds); the rest is false, see the _refuted theorems"
  },
  {
   "property": "C18",
   "status": "proved",
   "theorems": [
    "C18_compressed_matrix_history",
    "C18_compressed_matrix_rejects",
    "C18_out_of_range_write_refuted",
    "C18_resize_preserve_refuted",
    "C18_push_after_pop_refuted",
    "C18_reserve_below_nnz_refuted"
   ],
   "note": "All histories whose push_back goes behind everything stored and not before the furthest line touched since the last clear; without the latter restriction push_back after pop_back is refuted, as are resize(preserve), reserve below nnz and out-of-range writes. Iterators not modelled."
  },
  {
   "property": "C19",
   "status": "proved",
   "theorems": [
    "C19_mapped_vector_history",
    "C19_mapped_matrix_history",
    "C19_mapped_matrix_resize_preserve_refuted",
    "C19_mapped_vector_reserve_below_nnz_refuted",
    "C19_mapped_vector_insert_out_of_range_refuted"
   ],
   "note": "map_array storage (std::map storage is the ISO finite map). Refuted side claims: matrix resize(preserve), reserve below nnz, insert_element out of range."
  },
  {
   "property": "C20",
   "status": "proved",
   "theorems": [
    "C20_vector_assign",
    "C20_packed_target",
    "C20_size_mismatch_rejected",
    "C20_vector_assign_scalar"
   ],
   "note": "all kernels of vector_assign.hpp and the dispatch tables, over sorted-index iterators"
  },
  {
   "property": "C21",
   "status": "proved",
   "theorems": [
    "C21_swap_dense_sparse",
    "C21_swap_packed",
    "C21_swap_packed_refuted"
   ],
   "note": "dense and sparse proved; packed kernel proved only when v does not start before e, refuted otherwise (lower triangular columns)"
  },
  {
   "property": "C22",
   "status": "proved",
   "theorems": [
    "C22_inner_prod",
    "C22_prod_matrix_vector",
    "C22_prod_vector_matrix",
    "C22_prod_matrix_matrix",
    "C22_size_mismatch_rejected"
   ],
   "note": "vector/matrix products: every dispatch of inner_prod and the row/column iterators of prod equal the textbook sums"
  },
  {
   "property": "C23",
   "status": "proved",
   "theorems": [
    "C23_container_assign",
    "C23_container_assign_all_or_nothing",
    "C23_container_plus",
    "C23_container_minus",
    "C23_expression_assign",
    "C23_proxy_assign",
    "C23_proxy_plus",
    "C23_proxy_minus",
    "C23_proxy_all_or_nothing",
    "C23_noalias_reads_ahead",
    "C23_noalias_independent",
    "C23_noalias_elementwise",
    "C23_container_copy",
    "C23_plus_container",
    "C23_minus_container",
    "C23_overlapping_ranges",
    "C23_scalar",
    "C23_noalias_shift_refuted",
    "C23_noalias_prod_refuted",
    "C23_matrix_range_overlap_refuted",
    "C23_noalias_sparse_refuted",
    "C23_scalar_alias_refuted"
   ],
   "note": "dense kernels for every expression; unsafe cases (noalias overlap, overlapping matrix_range assignment, noalias with a sparse right-hand side, aliased scalar) are the theorems named _refuted"
  },
  {
   "property": "C24",
   "status": "proved",
   "theorems": [
    "C24_sums",
    "C24_norm_inf",
    "C24_index_norm_inf",
    "C24_matrix_norms",
    "C24_norm_frobenius",
    "C24_scaled_norm_indexing",
    "C24_scaled_norm_iterators_refuted"
   ],
   "note": "All three kernels of every reduction, over totally ordered exact scalars. The SCALED_NORM build's iterator kernels divide by zero when the vector starts with zero (refuted theorem)."
  },
  {
   "property": "C25",
   "status": "proved",
   "theorems": [
    "C25_inplace_solve",
    "C25_inplace_solve_left",
    "C25_inplace_solve_matrix",
    "C25_zero_pivot_raises",
    "C25_bad_sizes_rejected"
   ],
   "note": "All kernels (dense/packed/sparse, row/column, lower/upper/unit, vector left/right, matrix RHS) over an arbitrary field: solves, unique, singular raised, bad sizes rejected. Exact arithmetic, not floating point."
  },
  {
   "property": "C26",
   "status": "proved",
   "theorems": [
    "C26_lu_factorize",
    "C26_lu_factorize_pivot",
    "C26_pivot_is_largest"
   ],
   "note": "LU factorisation with and without pivoting over any field; returned singular index; pivot choice"
  },
  {
   "property": "C27",
   "status": "proved",
   "theorems": [
    "C27_lu_substitute",
    "C27_lu_substitute_no_pivot"
   ],
   "note": "lu_substitute(m, v) and (m, pm, v)"
  },
  {
   "property": "C28",
   "status": "proved",
   "theorems": [
    "C28_lu_substitute_left",
    "C28_lu_substitute_left_no_pivot",
    "C28_lu_substitute_left_refuted"
   ],
   "note": "lu_substitute(v, m, pm) proved to solve x (P A) = P b, and x A = b only when no exchange happened; refuted in general by a 2x2 example"
  },
  {
   "property": "C29",
   "status": "proved",
   "theorems": [
    "C29_swap_rows_permutes",
    "C29_reverse_restores"
   ],
   "note": "swap_rows on vectors and matrices"
  },
  {
   "property": "C30",
   "status": "proved",
   "theorems": [
    "C30_axpy_matrix_vector",
    "C30_axpy_vector_matrix",
    "C30_axpy_matrix_matrix",
    "C30_axpy_matrix_matrix_full",
    "C30_axpy_compressed",
    "C30_axpy_coordinate",
    "C30_opb_prod",
    "C30_block_prod",
    "C30_block_size_zero_refuted",
    "C30_sparse_prod",
    "C30_sparse_prod_no_init",
    "C30_all_equal_prod",
    "C30_sparse_prod_empty_refuted",
    "C30_sparse_prod_accumulate_refuted",
    "C30_axpy_dense_restriction_refuted"
   ],
   "note": "axpy_prod, opb_prod, block_prod and sparse_prod; sparse_prod needs a non-empty result and overwrites instead of adding when init is false (theorems named refuted/no_init state what happens)"
  },
  {
   "property": "C31",
   "status": "proved",
   "theorems": [
    "C31_vector_read_accepts",
    "C31_vector_read_rejects",
    "C31_vector_round_trip",
    "C31_failed_stream",
    "C31_matrix_read_accepts",
    "C31_matrix_read_rejects",
    "C31_matrix_round_trip",
    "C31_symmetric_read_accepts",
    "C31_symmetric_read_rejects",
    "C31_symmetric_round_trip",
    "C31_unsigned_elements",
    "C31_nested_vectors",
    "C31_trailing_comma_refuted",
    "C31_negative_size_refuted"
   ],
   "note": "character-level model of io.hpp; accepted language characterised exactly; trailing comma accepted and negative sizes read modulo 2^64 (theorems named _refuted)"
  },
  {
   "property": "C32",
   "status": "proved",
   "theorems": [
    "C32_vector_plan",
    "C32_matrix_plan",
    "C32_vector_values",
    "C32_vector_statement",
    "C32_vector_statement_rejects",
    "C32_matrix_statement",
    "C32_by_row_values",
    "C32_by_column_values",
    "C32_too_many_values",
    "C32_no_wrap_values",
    "C32_block_grid",
    "C32_block_grid_by_column",
    "C32_block_after_full_row_refuted",
    "C32_empty_block_refuted",
    "C32_unchecked_overflow_refuted",
    "C32_compressed_vector",
    "C32_compressed_matrix"
   ],
   "note": "Every statement equals its plan of writes (C32_vector_plan/C32_matrix_plan); dense vectors and matrices of both layouts, value lists under all four policies, grids of blocks, compressed vectors and matrices; too many values rejected in checked builds. Limits shown by the _refuted theorems."
  },
  {
   "property": "C33",
   "status": "proved",
   "theorems": [
    "C33_strides_address_every_element_once",
    "C33_static_strides",
    "C33_oversized_shape_refuted"
   ],
   "note": "All valid shapes whose element count fits in size_t; without that bound the constructor accepts shapes whose product wraps (refuted)."
  },
  {
   "property": "C34",
   "status": "proved",
   "theorems": [
    "C34_multi_index_and_linear_index",
    "C34_wrong_number_of_indices_throws",
    "C34_at_checks_components_refuted"
   ],
   "note": "Components are not range-checked by at() (refuted); rank-1 at(i) is linear access."
  },
  {
   "property": "C35",
   "status": "proved",
   "theorems": [
    "C35_copy_and_transform",
    "C35_copy_succeeds",
    "C35_accumulate",
    "C35_extent_of_2_32_refuted"
   ],
   "note": "Extents below 2^32; larger ones make the 32-bit counters run for ever (refuted)."
  },
  {
   "property": "C36",
   "status": "proved",
   "theorems": [
    "C36_trans_kernel",
    "C36_trans",
    "C36_inverse_restores",
    "C36_non_permutation_rejected",
    "C36_rank_1_refuted"
   ],
   "note": "Rank >= 2 and extents below 2^32; rank 1 yields zeros (refuted)."
  },
  {
   "property": "C37",
   "status": "proved",
   "theorems": [
    "C37_tensor_times_vector",
    "C37_tensor_times_matrix",
    "C37_tensor_times_tensor",
    "C37_tensor_times_tensor_no_modes",
    "C37_inner_prod",
    "C37_outer_prod",
    "C37_ttt_kernel_last_modes"
   ],
   "note": "Extents below 2^32 where a 32-bit counter is used; products without contraction need rank >= 2 operands for outer_prod (C38)."
  },
  {
   "property": "C38",
   "status": "proved",
   "theorems": [
    "C38_tensor_times_vector_rejects",
    "C38_tensor_times_matrix_rejects",
    "C38_empty_matrix_rejected",
    "C38_tensor_times_tensor_rejects",
    "C38_tensor_times_tensor_safe",
    "C38_inner_prod_rejects",
    "C38_outer_prod_rejects_low_rank",
    "C38_tensor_times_matrix_rank_1_refuted",
    "C38_repeated_modes_refuted",
    "C38_static_rank_inner_prod_refuted",
    "C38_static_rank_low_result_refuted",
    "C38_ttt_kernel_guard_refuted",
    "C38_ttt_kernel_rank_1_refuted"
   ],
   "note": "prod with vector, prod with matrix (rank >= 2), prod with tuples (never out of bounds, rejects bad tuples), inner_prod (dynamic rank) and outer_prod proved; refuted: ttm on rank 1, repeated modes accepted, static-rank inner_prod reads out of bounds, pointer-level ttt guard."
  },
  {
   "property": "C39",
   "status": "proved",
   "theorems": [
    "C39_row_range_exact",
    "C39_column_range_exact",
    "C39_mutable_row_range_exact",
    "C39_mutable_column_range_exact"
   ],
   "note": ""
  },
  {
   "property": "C40",
   "status": "proved",
   "theorems": [
    "C40_array_adaptor_ownership",
    "C40_array_adaptor_assign",
    "C40_array_adaptor_assign_temporary"
   ],
   "note": "Shallow array adaptor (optional) not modelled."
  },
  {
   "property": "C41",
   "status": "proved",
   "theorems": [
    "C41_traverse",
    "C41_find",
    "C41_assign",
    "C41_reverse_dense",
    "C41_size_mismatch",
    "C41_reverse_packed_refuted",
    "C41_reverse_sparse_refuted",
    "C41_skips_zero_positions"
   ],
   "note": "All tree shapes by induction; reverse iteration proved for dense expressions and refuted for packed and sparse ones."
  },
  {
   "property": "C42",
   "status": "proved",
   "theorems": [
    "C42_equality",
    "C42_relational",
    "C42_inequality_refuted",
    "C42_different_layouts_refuted",
    "C42_static_rank_shapes_refuted"
   ],
   "note": "== and relational operators proved for dynamic rank and one layout; != is not the negation of == (refuted), static rank ignores the shapes (refuted), different layouts are compared by position (refuted)."
  },
  {
   "property": "C43",
   "status": "proved",
   "theorems": [
    "C43_expression_assignment",
    "C43_shape_mismatch_throws",
    "C43_mixed_layouts_refuted",
    "C43_mixed_types_unchecked_refuted"
   ],
   "note": "All tensors of one type: proved for every expression and schedule; refuted with mixed layouts and mixed types. Matrix/vector operands not modelled."
  },
  {
   "property": "C44",
   "status": "proved",
   "theorems": [
    "C44_reshape",
    "C44_reshape_back"
   ],
   "note": ""
  },
  {
   "property": "C45",
   "status": "proved",
   "theorems": [
    "C45_einstein_contraction",
    "C45_einstein_identical_labels",
    "C45_no_common_label_refuted"
   ],
   "note": "Common-label and identical-label cases proved; no common label gives an element-wise product (refuted as outer product)."
  },
  {
   "property": "C46",
   "status": "proved",
   "theorems": [
    "C46_matrix_assign",
    "C46_packed_target",
    "C46_size_mismatch_rejected",
    "C46_matrix_assign_scalar",
    "C46_matrix_swap",
    "C46_swap_packed_refuted"
   ],
   "note": "Assignment, scalar assignment and swap proved for all storage kinds and orientations; swap of packed proxies of different shapes refuted (C46_swap_packed_refuted), so the property holds for swap only with equal shapes. *= and /= of a matrix expression do not exist; times-assign is scalar only."
  },
  {
   "property": "C47",
   "status": "proved",
   "theorems": [
    "C47_same_as_lu_factorize",
    "C47_axpy_lu_factorize",
    "C47_substitute",
    "C47_wide_refuted"
   ],
   "note": "Equality with lu_factorize's result proved by running both loops in step; the L*U = P*A statement for size2 <= size1; counterexample for wide matrices."
  },
  {
   "property": "C48",
   "status": "proved",
   "theorems": [
    "C48_traverse",
    "C48_line",
    "C48_reverse_line",
    "C48_reverse_across_refuted",
    "C48_store"
   ],
   "note": "traversal in both orders, single lines, reverse lines (along storage, or completed index array), writes; reverse across storage refuted on a witness"
  },
  {
   "property": "C49",
   "status": "proved",
   "theorems": [
    "C49_coordinate_matrix_history",
    "C49_coordinate_matrix_rejects",
    "C49_pop_only_element_throws_refuted",
    "C49_pop_unsorted_loses_element_refuted",
    "C49_out_of_range_write_is_stored_refuted",
    "C49_conversion",
    "C49_conversion_base1_refuted",
    "C49_conversion_no_lines_refuted"
   ],
   "note": "coordinate_matrix history refinement, rejections, conversion to compressed_matrix; refuted corner cases proved as such"
  },
  {
   "property": "C50",
   "status": "proved",
   "theorems": [
    "C50_reachable",
    "C50_traverse",
    "C50_reverse",
    "C50_write",
    "C50_position",
    "C50_arithmetic",
    "C50_difference",
    "C50_negative_difference_refuted",
    "C50_end_index",
    "C50_end_index_refuted"
   ],
   "note": "dense matrix iterators: traversal, reverse traversal, writing, arithmetic; negative difference and column-major end index refuted"
  },
  {
   "property": "C51",
   "status": "proved",
   "theorems": [
    "C51_read",
    "C51_write",
    "C51_traverse",
    "C51_reverse",
    "C51_fill",
    "C51_square_regular",
    "C51_tall_columns_refuted",
    "C51_wide_columns_refuted",
    "C51_empty_strict_refuted"
   ],
   "note": "all shapes the code handles; the shapes where iteration fails are refuted separately"
  },
  {
   "property": "C52",
   "status": "proved",
   "theorems": [
    "C52_read",
    "C52_write",
    "C52_hermitian_reference",
    "C52_traverse",
    "C52_fill",
    "C52_arithmetic",
    "C52_subtract",
    "C52_subtract_refuted",
    "C52_reverse_refuted",
    "C52_negative_difference_refuted"
   ],
   "note": "forward traversal, arithmetic, element access, mutable iterators; the broken operations are refuted separately"
  },
  {
   "property": "C53",
   "status": "proved",
   "theorems": [
    "C53_copy",
    "C53_swap",
    "C53_scal",
    "C53_axpy",
    "C53_rot",
    "C53_tmv",
    "C53_gmv",
    "C53_gr",
    "C53_sr",
    "C53_hr",
    "C53_sr2",
    "C53_hr2",
    "C53_tmm",
    "C53_gmm",
    "C53_srk",
    "C53_hrk",
    "C53_sr2k",
    "C53_hr2k",
    "C53_symmetric",
    "C53_hermitian",
    "C53_all_or_nothing",
    "C53_mismatch_rejected",
    "C53_scal_by_own_element_refuted",
    "C53_reductions",
    "C53_dot",
    "C53_tsv",
    "C53_tsm"
   ],
   "note": "dense containers and proxies; SIMPLE_ET_DEBUG variants not modelled"
  },
  {
   "property": "C54",
   "status": "proved",
   "theorems": [
    "C54_traverse_rows",
    "C54_traverse_columns",
    "C54_only_stored",
    "C54_source",
    "C54_assign",
    "C54_size_mismatch",
    "C54_prod_matrix_vector",
    "C54_prod_vector_matrix",
    "C54_sum_with_sparse_product_refuted",
    "C54_dense_outer_row_skipped",
    "C54_dense_sum_with_outer_refuted"
   ],
   "note": "All expression forms except reverse iteration; operands of sums need iterators for every line (refuted otherwise)."
  },
  {
   "property": "C55",
   "status": "proved",
   "theorems": [
    "C55_elements",
    "C55_visited_positions",
    "C55_views_are_well_formed",
    "C55_vector_loop",
    "C55_vector_reverse_loop",
    "C55_vector_random_access",
    "C55_matrix_loop",
    "C55_matrix_reverse_loop",
    "C55_matrix_random_access",
    "C55_view_like_container",
    "C55_checked_end"
   ],
   "note": "all views, nested arbitrarily, const iterators over abstract containers (positions visited + elements); sizes unbounded, same_closure checks not modelled; writing through iterators not modelled"
  },
  {
   "property": "C56",
   "status": "proved",
   "theorems": [
    "C56_traverse",
    "C56_line",
    "C56_find",
    "C56_step",
    "C56_reverse_unchecked",
    "C56_reverse_checked_refuted",
    "C56_store"
   ],
   "note": "mapped_matrix over map_array; reverse iteration refuted in checked builds and characterised in unchecked ones"
  },
  {
   "property": "C57",
   "status": "proved",
   "theorems": [
    "C57_mapped_vector",
    "C57_compressed_vector",
    "C57_coordinate_vector",
    "C57_mapped_vector_assign",
    "C57_compressed_vector_assign",
    "C57_coordinate_vector_assign"
   ],
   "note": "forward, reverse and ranged loops and assignment through iterators for the three sparse vectors, after any legal history"
  },
  {
   "property": "C58",
   "status": "proved",
   "theorems": [
    "C58_vector_of_mapped_history",
    "C58_vector_of_compressed_history",
    "C58_vector_of_coordinate_history",
    "C58_default_constructor",
    "C58_rejects",
    "C58_out_of_range_read_gives_zero_refuted",
    "C58_shrink_after_append_throws_refuted"
   ],
   "note": "Histories for the three line types, both layouts; rejects; two refuted expectations (out-of-range const reads return zero in checked builds; preserving shrink after append_element throws)."
  },
  {
   "property": "C59",
   "status": "proved",
   "theorems": [
    "C59_traverse_along",
    "C59_traverse_across_and_reverse",
    "C59_assign",
    "C59_end_checked",
    "C59_checked_across_and_reverse_refuted",
    "C59_reverse_across_coordinate",
    "C59_reverse_across_compressed_refuted",
    "C59_reverse_across_mapped_refuted"
   ],
   "note": "Loops along the lines (forward, inner reversed, assigning) in both builds; across the lines and reversed in unchecked builds; end iterators rejected in checked builds. What users would expect and does not hold is stated in the _refuted theorems: across/reverse in checked builds, reverse across with compressed or mapped lines."
  },
  {
   "property": "C60",
   "status": "proved",
   "theorems": [
    "C60_vectors",
    "C60_matrices",
    "C60_end_checked",
    "C60_unit_vector_outside_refuted",
    "C60_identity_by_find",
    "C60_identity_by_find_refuted",
    "C60_identity_row_outside_refuted"
   ],
   "note": "Access and iteration for all sizes; what does not hold (unit_vector with index outside, identity_matrix by find2 in checked builds, inner loops beyond the smaller size) is stated in the _refuted theorems."
  },
  {
   "property": "C61",
   "status": "proved",
   "theorems": [
    "C61_c_vector_history",
    "C61_c_matrix_history",
    "C61_capacity",
    "C61_swap",
    "C61_swap_matrix",
    "C61_checked_access",
    "C61_row_end_refuted",
    "C61_assign_expression_refuted",
    "C61_resize_matrix_refuted",
    "C61_swap_shorter_refuted"
   ],
   "note": "histories, iteration, copy and swap proved; capacity and checked access proved; four expectations refuted"
  },
  {
   "property": "C62",
   "status": "proved",
   "theorems": [
    "C62_traverse",
    "C62_line",
    "C62_find",
    "C62_assign",
    "C62_end_checked",
    "C62_reverse_outer_unchecked",
    "C62_reverse_line_wrong_index_refuted",
    "C62_reverse_last_line_refuted",
    "C62_reverse_across_refuted",
    "C62_reverse_outer_refuted",
    "C62_end_and_backward_find_refuted"
   ],
   "note": "coordinate_matrix iterators: nested loops, find, writing, checked ends; reverse loops refuted for all histories"
  },
  {
   "property": "C63",
   "status": "proved",
   "theorems": [
    "C63_history",
    "C63_rejects",
    "C63_no_range_check_refuted",
    "C63_copy_swap",
    "C63_traverse",
    "C63_line_along",
    "C63_line_unwritten_refuted",
    "C63_line_across",
    "C63_reverse_across_refuted",
    "C63_traverse_across_refuted",
    "C63_assign",
    "C63_end_rejected"
   ],
   "note": "All histories, both layouts, checked and unchecked; loops along the layout exact in both directions; four defects proved as refutations."
  },
  {
   "property": "C64",
   "status": "proved",
   "theorems": [
    "C64_elements",
    "C64_traverse",
    "C64_reverse",
    "C64_find",
    "C64_fill",
    "C64_checked_complete",
    "C64_random_access",
    "C64_other_line_raises",
    "C64_tall_columns_refuted",
    "C64_empty_strict_refuted"
   ],
   "note": "Iterators of the four packed containers, both layouts, both builds; with two refuted corner cases."
  },
  {
   "property": "C65",
   "status": "proved",
   "theorems": [
    "C65_get",
    "C65_packed",
    "C65_view",
    "C65_construct",
    "C65_other_base_rejected",
    "C65_of_compressed_matrix",
    "C65_no_range_check_refuted",
    "C65_unsorted_refuted"
   ],
   "note": "compressed_matrix_view over compressed arrays, incl. those of a compressed_matrix; two refuted missing checks."
  },
  {
   "property": "C66",
   "status": "proved",
   "theorems": [
    "C66_traverse",
    "C66_reverse",
    "C66_fill",
    "C66_history",
    "C66_random_access",
    "C66_out_of_range_raises",
    "C66_unchecked_range_refuted"
   ],
   "note": "a dense matrix as vector of rows / columns; one refuted missing check in unchecked builds."
  },
  {
   "property": "C67",
   "status": "proved",
   "theorems": [
    "C67_history",
    "C67_checked_range",
    "C67_new",
    "C67_new_elements_zero",
    "C67_hidden_origin",
    "C67_resurrected_row_refuted"
   ],
   "note": "array-of-lines matrix; refuted: hidden line behind the last one is readable and comes back."
  },
  {
   "property": "C68",
   "status": "proved",
   "theorems": [
    "C68_traverse",
    "C68_fill",
    "C68_random_access",
    "C68_other_line_raises",
    "C68_assigned_iterator_refuted",
    "C68_less_refuted",
    "C68_count",
    "C68_empty_rows_refuted"
   ],
   "note": "loops over an array-of-lines matrix for any placement of the lines; refuted: iterator assignment, ordering of rows, empty rows."
  },
  {
   "property": "C69",
   "status": "proved",
   "theorems": [
    "C69_text",
    "C69_static",
    "C69_vector",
    "C69_scalar",
    "C69_unambiguous",
    "C69_rank1_refuted",
    "C69_default_refuted"
   ],
   "note": "text of a tensor; refuted: rank 1 throws, default tensor reads out of bounds."
  },
  {
   "property": "C70",
   "status": "proved",
   "theorems": [
    "C70_extents",
    "C70_from_matrix",
    "C70_from_vector",
    "C70_static_rank_only_two",
    "C70_static_from_matrix",
    "C70_static_from_vector",
    "C70_static_short_vector_refuted",
    "C70_static_from_tensor",
    "C70_static_at_refuted",
    "C70_static_default",
    "C70_fill",
    "C70_assign_container",
    "C70_init",
    "C70_init_static"
   ],
   "note": "making tensors; refuted: short vectors accepted and at unchecked for static extents."
  },
  {
   "property": "C71",
   "status": "proved",
   "theorems": [
    "C71_vector_history",
    "C71_bounded_vector_history",
    "C71_fixed_vector_history",
    "C71_constructors",
    "C71_construct_from_expression",
    "C71_iterators",
    "C71_unchecked_sizes_refuted",
    "C71_sized_constructor_zeroes_refuted"
   ],
   "note": "dense vectors; refuted: sized constructor zero-fills, unchecked size mismatches detected."
  },
  {
   "property": "C72",
   "status": "proved",
   "theorems": [
    "C72_matrix_history",
    "C72_bounded_matrix_history",
    "C72_fixed_matrix_history",
    "C72_constructors",
    "C72_noalias_transpose_refuted",
    "C72_bounded_rows_refuted"
   ],
   "note": "dense matrices; refuted: noalias transposition in place, row bound of bounded_matrix."
  },
  {
   "property": "C73",
   "status": "proved",
   "theorems": [
    "C73_triangular_history",
    "C73_symmetric_history",
    "C73_hermitian_history",
    "C73_banded_history",
    "C73_noalias_transpose",
    "C73_banded_preserve_refuted"
   ],
   "note": "histories of the four structured matrix types; refuted for banded: noalias transposition, preserving resize."
  },
  {
   "property": "C74",
   "status": "proved",
   "theorems": [
    "C74_mapped_vector_history",
    "C74_compressed_vector_history",
    "C74_coordinate_vector_history",
    "C74_noalias_self_loses_refuted"
   ],
   "note": "histories of the three sparse vector types with assignment; refuted: noalias (v) = v."
  },
  {
   "property": "C75",
   "status": "proved",
   "theorems": [
    "C75_compressed_matrix_history",
    "C75_coordinate_matrix_history",
    "C75_mapped_matrix_history",
    "C75_noalias_self_loses_refuted"
   ],
   "note": "histories of the three sparse matrix types, both layouts, with assignment of expressions; refuted: noalias (m) = m."
  },
  {
   "property": "C76",
   "status": "proved",
   "theorems": [
    "C76_triangular_matrix_resizes",
    "C76_symmetric_matrix_resizes",
    "C76_hermitian_matrix_resizes",
    "C76_banded_matrix_resizes",
    "C76_resize_packed_preserve_loses_refuted"
   ],
   "note": "histories with all resizing members; refuted: resize_packed_preserve in the other two packings and with changed diagonals."
  },
  {
   "property": "C77",
   "status": "proved",
   "theorems": [
    "C77_constructed_from_expression",
    "C77_constructed_from_mismatched_shapes_throws",
    "C77_other_layout_refuted",
    "C77_other_layout_keeps_storage",
    "C77_constructed_from_matrix",
    "C77_constructed_from_empty_matrix_throws",
    "C77_constructed_from_vector",
    "C77_value_assigned",
    "C77_norm",
    "C77_norm_same_in_both_layouts",
    "C77_norm_of_inner_product",
    "C77_norm_of_transposed",
    "C77_norm_zero_only_for_zero",
    "C77_norm_of_complex_refuted",
    "C77_empty_tensor_throws",
    "C77_real_imag_conj",
    "C77_real_of_conj"
   ],
   "note": "proved for all shapes and layouts; refuted: elements of a tensor converted from the other layout, norm for complex elements."
  },
  {
   "property": "C78",
   "status": "proved",
   "theorems": [
    "C78_shallow_adaptor_memory",
    "C78_shallow_element",
    "C78_shallow_copy_shares",
    "C78_shallow_write",
    "C78_shallow_resize_same",
    "C78_shallow_resize",
    "C78_shallow_assign",
    "C78_shallow_swap",
    "C78_shallow_resize_user",
    "C78_shallow_assign_temporary",
    "C78_shallow_destroy",
    "C78_refuted_assignment_changes_its_target_only"
   ],
   "note": "proved for all programs; refuted: assignment changes its target only."
  },
  {
   "property": "C79",
   "status": "proved",
   "theorems": [
    "C79_mapped_vector_element",
    "C79_compressed_vector_element",
    "C79_coordinate_vector_element",
    "C79_element_aliases"
   ],
   "note": "proved for all programs."
  },
  {
   "property": "C80",
   "status": "proved",
   "theorems": [
    "C80_compressed_matrix_element",
    "C80_coordinate_matrix_element",
    "C80_mapped_matrix_element",
    "C80_element_aliases"
   ],
   "note": "proved for all programs."
  }
 ]
}
(** Assumptions.v -- generated by work/manifest.py: Print Assumptions of every theorem named in
    MANIFEST.json.  Expected: "Closed under the global context" each time. *)
From Verif Require AliasProps AssignProps AxpyLuProps BlasProps CArrProps CMIterProps CMatProps CVecProps CoIterProps CoMatProps CoVecProps CommaProps DMIterProps DMatProps DVecProps ElProps InnerProps IoProps LayoutProps LuProps MAdaptProps MAssignProps MElProps MMIterProps MVecProps MexProps NMapProps NormProps OperProps PHistProps PackedProps PkIterProps PkResizeProps ProxyProps SAdaptProps SHistProps SMHistProps SVIterProps SViewProps ShallowProps SparseProps SpecialProps StorageProps TCtorProps TMkProps TPrintProps TensorExprProps TensorMulProps TensorProps TriProps VVIterProps VVProps VexProps ViewIterProps VoVIterProps VoVProps.
Print Assumptions AliasProps.C23_container_assign.
Print Assumptions AliasProps.C23_container_assign_all_or_nothing.
Print Assumptions AliasProps.C23_container_plus.
Print Assumptions AliasProps.C23_container_minus.
Print Assumptions AliasProps.C23_expression_assign.
Print Assumptions AliasProps.C23_proxy_assign.
Print Assumptions AliasProps.C23_proxy_plus.
Print Assumptions AliasProps.C23_proxy_minus.
Print Assumptions AliasProps.C23_proxy_all_or_nothing.
Print Assumptions AliasProps.C23_noalias_reads_ahead.
Print Assumptions AliasProps.C23_noalias_independent.
Print Assumptions AliasProps.C23_noalias_elementwise.
Print Assumptions AliasProps.C23_container_copy.
Print Assumptions AliasProps.C23_plus_container.
Print Assumptions AliasProps.C23_minus_container.
Print Assumptions AliasProps.C23_overlapping_ranges.
Print Assumptions AliasProps.C23_scalar.
Print Assumptions AliasProps.C23_noalias_shift_refuted.
Print Assumptions AliasProps.C23_noalias_prod_refuted.
Print Assumptions AliasProps.C23_matrix_range_overlap_refuted.
Print Assumptions AliasProps.C23_noalias_sparse_refuted.
Print Assumptions AliasProps.C23_scalar_alias_refuted.
Print Assumptions AssignProps.C20_vector_assign.
Print Assumptions AssignProps.C20_packed_target.
Print Assumptions AssignProps.C20_size_mismatch_rejected.
Print Assumptions AssignProps.C20_vector_assign_scalar.
Print Assumptions AssignProps.C21_swap_dense_sparse.
Print Assumptions AssignProps.C21_swap_packed.
Print Assumptions AssignProps.C21_swap_packed_refuted.
Print Assumptions AxpyLuProps.C47_same_as_lu_factorize.
Print Assumptions AxpyLuProps.C47_axpy_lu_factorize.
Print Assumptions AxpyLuProps.C47_substitute.
Print Assumptions AxpyLuProps.C47_wide_refuted.
Print Assumptions BlasProps.C53_copy.
Print Assumptions BlasProps.C53_swap.
Print Assumptions BlasProps.C53_scal.
Print Assumptions BlasProps.C53_axpy.
Print Assumptions BlasProps.C53_rot.
Print Assumptions BlasProps.C53_tmv.
Print Assumptions BlasProps.C53_gmv.
Print Assumptions BlasProps.C53_gr.
Print Assumptions BlasProps.C53_sr.
Print Assumptions BlasProps.C53_hr.
Print Assumptions BlasProps.C53_sr2.
Print Assumptions BlasProps.C53_hr2.
Print Assumptions BlasProps.C53_tmm.
Print Assumptions BlasProps.C53_gmm.
Print Assumptions BlasProps.C53_srk.
Print Assumptions BlasProps.C53_hrk.
Print Assumptions BlasProps.C53_sr2k.
Print Assumptions BlasProps.C53_hr2k.
Print Assumptions BlasProps.C53_symmetric.
Print Assumptions BlasProps.C53_hermitian.
Print Assumptions BlasProps.C53_all_or_nothing.
Print Assumptions BlasProps.C53_mismatch_rejected.
Print Assumptions BlasProps.C53_scal_by_own_element_refuted.
Print Assumptions BlasProps.C53_reductions.
Print Assumptions BlasProps.C53_dot.
Print Assumptions BlasProps.C53_tsv.
Print Assumptions BlasProps.C53_tsm.
Print Assumptions CArrProps.C61_c_vector_history.
Print Assumptions CArrProps.C61_c_matrix_history.
Print Assumptions CArrProps.C61_capacity.
Print Assumptions CArrProps.C61_swap.
Print Assumptions CArrProps.C61_swap_matrix.
Print Assumptions CArrProps.C61_checked_access.
Print Assumptions CArrProps.C61_row_end_refuted.
Print Assumptions CArrProps.C61_assign_expression_refuted.
Print Assumptions CArrProps.C61_resize_matrix_refuted.
Print Assumptions CArrProps.C61_swap_shorter_refuted.
Print Assumptions CMIterProps.C48_traverse.
Print Assumptions CMIterProps.C48_line.
Print Assumptions CMIterProps.C48_reverse_line.
Print Assumptions CMIterProps.C48_reverse_across_refuted.
Print Assumptions CMIterProps.C48_store.
Print Assumptions CMatProps.C18_compressed_matrix_history.
Print Assumptions CMatProps.C18_compressed_matrix_rejects.
Print Assumptions CMatProps.C18_out_of_range_write_refuted.
Print Assumptions CMatProps.C18_resize_preserve_refuted.
Print Assumptions CMatProps.C18_push_after_pop_refuted.
Print Assumptions CMatProps.C18_reserve_below_nnz_refuted.
Print Assumptions CVecProps.C14_compressed_vector_history.
Print Assumptions CVecProps.C14_compressed_vector_rejects.
Print Assumptions CVecProps.C14_reserve_below_nnz_drops_refuted.
Print Assumptions CVecProps.C14_insert_out_of_range_on_full_refuted.
Print Assumptions CVecProps.C14_insert_own_element_refuted.
Print Assumptions CoIterProps.C62_traverse.
Print Assumptions CoIterProps.C62_line.
Print Assumptions CoIterProps.C62_find.
Print Assumptions CoIterProps.C62_assign.
Print Assumptions CoIterProps.C62_end_checked.
Print Assumptions CoIterProps.C62_reverse_outer_unchecked.
Print Assumptions CoIterProps.C62_reverse_line_wrong_index_refuted.
Print Assumptions CoIterProps.C62_reverse_last_line_refuted.
Print Assumptions CoIterProps.C62_reverse_across_refuted.
Print Assumptions CoIterProps.C62_reverse_outer_refuted.
Print Assumptions CoIterProps.C62_end_and_backward_find_refuted.
Print Assumptions CoMatProps.C49_coordinate_matrix_history.
Print Assumptions CoMatProps.C49_coordinate_matrix_rejects.
Print Assumptions CoMatProps.C49_pop_only_element_throws_refuted.
Print Assumptions CoMatProps.C49_pop_unsorted_loses_element_refuted.
Print Assumptions CoMatProps.C49_out_of_range_write_is_stored_refuted.
Print Assumptions CoMatProps.C49_conversion.
Print Assumptions CoMatProps.C49_conversion_base1_refuted.
Print Assumptions CoMatProps.C49_conversion_no_lines_refuted.
Print Assumptions CoVecProps.C15_coordinate_vector_history.
Print Assumptions CoVecProps.C15_coordinate_vector_rejects.
Print Assumptions CoVecProps.C15_nonpreserving_resize_throws_refuted.
Print Assumptions CoVecProps.C16_vector_inplace_merge.
Print Assumptions CoVecProps.C16_matrix_inplace_merge.
Print Assumptions CoVecProps.C17_pop_back.
Print Assumptions CoVecProps.C17_pop_only_element_throws_refuted.
Print Assumptions CoVecProps.C17_pop_unsorted_loses_element_refuted.
Print Assumptions CommaProps.C32_vector_plan.
Print Assumptions CommaProps.C32_matrix_plan.
Print Assumptions CommaProps.C32_vector_values.
Print Assumptions CommaProps.C32_vector_statement.
Print Assumptions CommaProps.C32_vector_statement_rejects.
Print Assumptions CommaProps.C32_matrix_statement.
Print Assumptions CommaProps.C32_by_row_values.
Print Assumptions CommaProps.C32_by_column_values.
Print Assumptions CommaProps.C32_too_many_values.
Print Assumptions CommaProps.C32_no_wrap_values.
Print Assumptions CommaProps.C32_block_grid.
Print Assumptions CommaProps.C32_block_grid_by_column.
Print Assumptions CommaProps.C32_block_after_full_row_refuted.
Print Assumptions CommaProps.C32_empty_block_refuted.
Print Assumptions CommaProps.C32_unchecked_overflow_refuted.
Print Assumptions CommaProps.C32_compressed_vector.
Print Assumptions CommaProps.C32_compressed_matrix.
Print Assumptions DMIterProps.C50_reachable.
Print Assumptions DMIterProps.C50_traverse.
Print Assumptions DMIterProps.C50_reverse.
Print Assumptions DMIterProps.C50_write.
Print Assumptions DMIterProps.C50_position.
Print Assumptions DMIterProps.C50_arithmetic.
Print Assumptions DMIterProps.C50_difference.
Print Assumptions DMIterProps.C50_negative_difference_refuted.
Print Assumptions DMIterProps.C50_end_index.
Print Assumptions DMIterProps.C50_end_index_refuted.
Print Assumptions DMatProps.C72_matrix_history.
Print Assumptions DMatProps.C72_bounded_matrix_history.
Print Assumptions DMatProps.C72_fixed_matrix_history.
Print Assumptions DMatProps.C72_constructors.
Print Assumptions DMatProps.C72_noalias_transpose_refuted.
Print Assumptions DMatProps.C72_bounded_rows_refuted.
Print Assumptions DVecProps.C71_vector_history.
Print Assumptions DVecProps.C71_bounded_vector_history.
Print Assumptions DVecProps.C71_fixed_vector_history.
Print Assumptions DVecProps.C71_constructors.
Print Assumptions DVecProps.C71_construct_from_expression.
Print Assumptions DVecProps.C71_iterators.
Print Assumptions DVecProps.C71_unchecked_sizes_refuted.
Print Assumptions DVecProps.C71_sized_constructor_zeroes_refuted.
Print Assumptions ElProps.C79_mapped_vector_element.
Print Assumptions ElProps.C79_compressed_vector_element.
Print Assumptions ElProps.C79_coordinate_vector_element.
Print Assumptions ElProps.C79_element_aliases.
Print Assumptions InnerProps.C22_inner_prod.
Print Assumptions InnerProps.C22_prod_matrix_vector.
Print Assumptions InnerProps.C22_prod_vector_matrix.
Print Assumptions InnerProps.C22_prod_matrix_matrix.
Print Assumptions InnerProps.C22_size_mismatch_rejected.
Print Assumptions IoProps.C31_vector_read_accepts.
Print Assumptions IoProps.C31_vector_read_rejects.
Print Assumptions IoProps.C31_vector_round_trip.
Print Assumptions IoProps.C31_failed_stream.
Print Assumptions IoProps.C31_matrix_read_accepts.
Print Assumptions IoProps.C31_matrix_read_rejects.
Print Assumptions IoProps.C31_matrix_round_trip.
Print Assumptions IoProps.C31_symmetric_read_accepts.
Print Assumptions IoProps.C31_symmetric_read_rejects.
Print Assumptions IoProps.C31_symmetric_round_trip.
Print Assumptions IoProps.C31_unsigned_elements.
Print Assumptions IoProps.C31_nested_vectors.
Print Assumptions IoProps.C31_trailing_comma_refuted.
Print Assumptions IoProps.C31_negative_size_refuted.
Print Assumptions LayoutProps.C01_dense_layout_bijection.
Print Assumptions LayoutProps.C02_storage_size_guard_exact.
Print Assumptions LayoutProps.C02_element_guard_exact.
Print Assumptions LayoutProps.C02_address_guard_exact.
Print Assumptions LayoutProps.C03_triangular_packing.
Print Assumptions LayoutProps.C03_empty_unit_kinds.
Print Assumptions LayoutProps.C03_not_too_long_addressable.
Print Assumptions LayoutProps.C03_tall_unit_refuted.
Print Assumptions LayoutProps.C03_checked_outcome_exact.
Print Assumptions LayoutProps.C03_packed_lines_contiguous.
Print Assumptions LayoutProps.C03_size_guard_refuted.
Print Assumptions LayoutProps.C03_size_exact_below_2p32.
Print Assumptions LayoutProps.C39_row_range_exact.
Print Assumptions LayoutProps.C39_column_range_exact.
Print Assumptions LayoutProps.C39_mutable_row_range_exact.
Print Assumptions LayoutProps.C39_mutable_column_range_exact.
Print Assumptions LuProps.C29_swap_rows_permutes.
Print Assumptions LuProps.C29_reverse_restores.
Print Assumptions LuProps.C26_lu_factorize.
Print Assumptions LuProps.C26_lu_factorize_pivot.
Print Assumptions LuProps.C26_pivot_is_largest.
Print Assumptions LuProps.C27_lu_substitute.
Print Assumptions LuProps.C27_lu_substitute_no_pivot.
Print Assumptions LuProps.C28_lu_substitute_left.
Print Assumptions LuProps.C28_lu_substitute_left_no_pivot.
Print Assumptions LuProps.C28_lu_substitute_left_refuted.
Print Assumptions MAdaptProps.C51_read.
Print Assumptions MAdaptProps.C51_write.
Print Assumptions MAdaptProps.C51_traverse.
Print Assumptions MAdaptProps.C51_reverse.
Print Assumptions MAdaptProps.C51_fill.
Print Assumptions MAdaptProps.C51_square_regular.
Print Assumptions MAdaptProps.C51_tall_columns_refuted.
Print Assumptions MAdaptProps.C51_wide_columns_refuted.
Print Assumptions MAdaptProps.C51_empty_strict_refuted.
Print Assumptions MAssignProps.C46_matrix_assign.
Print Assumptions MAssignProps.C46_packed_target.
Print Assumptions MAssignProps.C46_size_mismatch_rejected.
Print Assumptions MAssignProps.C46_matrix_assign_scalar.
Print Assumptions MAssignProps.C46_matrix_swap.
Print Assumptions MAssignProps.C46_swap_packed_refuted.
Print Assumptions MElProps.C80_compressed_matrix_element.
Print Assumptions MElProps.C80_coordinate_matrix_element.
Print Assumptions MElProps.C80_mapped_matrix_element.
Print Assumptions MElProps.C80_element_aliases.
Print Assumptions MMIterProps.C56_traverse.
Print Assumptions MMIterProps.C56_line.
Print Assumptions MMIterProps.C56_find.
Print Assumptions MMIterProps.C56_step.
Print Assumptions MMIterProps.C56_reverse_unchecked.
Print Assumptions MMIterProps.C56_reverse_checked_refuted.
Print Assumptions MMIterProps.C56_store.
Print Assumptions MVecProps.C66_traverse.
Print Assumptions MVecProps.C66_reverse.
Print Assumptions MVecProps.C66_fill.
Print Assumptions MVecProps.C66_history.
Print Assumptions MVecProps.C66_random_access.
Print Assumptions MVecProps.C66_out_of_range_raises.
Print Assumptions MVecProps.C66_unchecked_range_refuted.
Print Assumptions MexProps.C54_traverse_rows.
Print Assumptions MexProps.C54_traverse_columns.
Print Assumptions MexProps.C54_only_stored.
Print Assumptions MexProps.C54_source.
Print Assumptions MexProps.C54_assign.
Print Assumptions MexProps.C54_size_mismatch.
Print Assumptions MexProps.C54_prod_matrix_vector.
Print Assumptions MexProps.C54_prod_vector_matrix.
Print Assumptions MexProps.C54_sum_with_sparse_product_refuted.
Print Assumptions MexProps.C54_dense_outer_row_skipped.
Print Assumptions MexProps.C54_dense_sum_with_outer_refuted.
Print Assumptions NMapProps.C63_history.
Print Assumptions NMapProps.C63_rejects.
Print Assumptions NMapProps.C63_no_range_check_refuted.
Print Assumptions NMapProps.C63_copy_swap.
Print Assumptions NMapProps.C63_traverse.
Print Assumptions NMapProps.C63_line_along.
Print Assumptions NMapProps.C63_line_unwritten_refuted.
Print Assumptions NMapProps.C63_line_across.
Print Assumptions NMapProps.C63_reverse_across_refuted.
Print Assumptions NMapProps.C63_traverse_across_refuted.
Print Assumptions NMapProps.C63_assign.
Print Assumptions NMapProps.C63_end_rejected.
Print Assumptions NormProps.C24_sums.
Print Assumptions NormProps.C24_norm_inf.
Print Assumptions NormProps.C24_index_norm_inf.
Print Assumptions NormProps.C24_matrix_norms.
Print Assumptions NormProps.C24_norm_frobenius.
Print Assumptions NormProps.C24_scaled_norm_indexing.
Print Assumptions NormProps.C24_scaled_norm_iterators_refuted.
Print Assumptions OperProps.C30_axpy_matrix_vector.
Print Assumptions OperProps.C30_axpy_vector_matrix.
Print Assumptions OperProps.C30_axpy_matrix_matrix.
Print Assumptions OperProps.C30_axpy_matrix_matrix_full.
Print Assumptions OperProps.C30_axpy_compressed.
Print Assumptions OperProps.C30_axpy_coordinate.
Print Assumptions OperProps.C30_opb_prod.
Print Assumptions OperProps.C30_block_prod.
Print Assumptions OperProps.C30_block_size_zero_refuted.
Print Assumptions OperProps.C30_sparse_prod.
Print Assumptions OperProps.C30_sparse_prod_no_init.
Print Assumptions OperProps.C30_all_equal_prod.
Print Assumptions OperProps.C30_sparse_prod_empty_refuted.
Print Assumptions OperProps.C30_sparse_prod_accumulate_refuted.
Print Assumptions OperProps.C30_axpy_dense_restriction_refuted.
Print Assumptions PHistProps.C73_triangular_history.
Print Assumptions PHistProps.C73_symmetric_history.
Print Assumptions PHistProps.C73_hermitian_history.
Print Assumptions PHistProps.C73_banded_history.
Print Assumptions PHistProps.C73_noalias_transpose.
Print Assumptions PHistProps.C73_banded_preserve_refuted.
Print Assumptions PackedProps.C01_dense_matrix_is_a_function.
Print Assumptions PackedProps.C04_triangular_matrix.
Print Assumptions PackedProps.C04_tall_unit_write_refuted.
Print Assumptions PackedProps.C08_dense_matrix_resize.
Print Assumptions PackedProps.C08_matrix_resize_zero_fill_refuted.
Print Assumptions PackedProps.C08_triangular_matrix_resize.
Print Assumptions PackedProps.C05_banded_matrix.
Print Assumptions PackedProps.C05_banded_resize_out_of_bounds_refuted.
Print Assumptions PackedProps.C05_banded_resize_loses_elements_refuted.
Print Assumptions PackedProps.C06_symmetric_matrix.
Print Assumptions PackedProps.C06_at_element_refuted.
Print Assumptions PackedProps.C07_hermitian_matrix.
Print Assumptions PackedProps.C07_erase_other_triangle_rejected.
Print Assumptions PackedProps.C07_assignment_outside_stored_triangle_throws.
Print Assumptions PackedProps.C07_erase_element_refuted.
Print Assumptions PackedProps.C07_diagonal_refuted.
Print Assumptions PkIterProps.C64_elements.
Print Assumptions PkIterProps.C64_traverse.
Print Assumptions PkIterProps.C64_reverse.
Print Assumptions PkIterProps.C64_find.
Print Assumptions PkIterProps.C64_fill.
Print Assumptions PkIterProps.C64_checked_complete.
Print Assumptions PkIterProps.C64_random_access.
Print Assumptions PkIterProps.C64_other_line_raises.
Print Assumptions PkIterProps.C64_tall_columns_refuted.
Print Assumptions PkIterProps.C64_empty_strict_refuted.
Print Assumptions PkResizeProps.C76_triangular_matrix_resizes.
Print Assumptions PkResizeProps.C76_symmetric_matrix_resizes.
Print Assumptions PkResizeProps.C76_hermitian_matrix_resizes.
Print Assumptions PkResizeProps.C76_banded_matrix_resizes.
Print Assumptions PkResizeProps.C76_resize_packed_preserve_loses_refuted.
Print Assumptions ProxyProps.C11_view_read.
Print Assumptions ProxyProps.C11_view_write.
Print Assumptions ProxyProps.C11_views_share_elements.
Print Assumptions ProxyProps.C11_view_elements_distinct.
Print Assumptions ProxyProps.C11_project_of_projection.
Print Assumptions ProxyProps.C11_project_all_of_projection_refuted.
Print Assumptions ProxyProps.C11_checked_views_are_safe.
Print Assumptions SAdaptProps.C52_read.
Print Assumptions SAdaptProps.C52_write.
Print Assumptions SAdaptProps.C52_hermitian_reference.
Print Assumptions SAdaptProps.C52_traverse.
Print Assumptions SAdaptProps.C52_fill.
Print Assumptions SAdaptProps.C52_arithmetic.
Print Assumptions SAdaptProps.C52_subtract.
Print Assumptions SAdaptProps.C52_subtract_refuted.
Print Assumptions SAdaptProps.C52_reverse_refuted.
Print Assumptions SAdaptProps.C52_negative_difference_refuted.
Print Assumptions SHistProps.C74_mapped_vector_history.
Print Assumptions SHistProps.C74_compressed_vector_history.
Print Assumptions SHistProps.C74_coordinate_vector_history.
Print Assumptions SHistProps.C74_noalias_self_loses_refuted.
Print Assumptions SMHistProps.C75_compressed_matrix_history.
Print Assumptions SMHistProps.C75_coordinate_matrix_history.
Print Assumptions SMHistProps.C75_mapped_matrix_history.
Print Assumptions SMHistProps.C75_noalias_self_loses_refuted.
Print Assumptions SVIterProps.C57_mapped_vector.
Print Assumptions SVIterProps.C57_compressed_vector.
Print Assumptions SVIterProps.C57_coordinate_vector.
Print Assumptions SVIterProps.C57_mapped_vector_assign.
Print Assumptions SVIterProps.C57_compressed_vector_assign.
Print Assumptions SVIterProps.C57_coordinate_vector_assign.
Print Assumptions SViewProps.C65_get.
Print Assumptions SViewProps.C65_packed.
Print Assumptions SViewProps.C65_view.
Print Assumptions SViewProps.C65_construct.
Print Assumptions SViewProps.C65_other_base_rejected.
Print Assumptions SViewProps.C65_of_compressed_matrix.
Print Assumptions SViewProps.C65_no_range_check_refuted.
Print Assumptions SViewProps.C65_unsorted_refuted.
Print Assumptions ShallowProps.C78_shallow_adaptor_memory.
Print Assumptions ShallowProps.C78_shallow_element.
Print Assumptions ShallowProps.C78_shallow_copy_shares.
Print Assumptions ShallowProps.C78_shallow_write.
Print Assumptions ShallowProps.C78_shallow_resize_same.
Print Assumptions ShallowProps.C78_shallow_resize.
Print Assumptions ShallowProps.C78_shallow_assign.
Print Assumptions ShallowProps.C78_shallow_swap.
Print Assumptions ShallowProps.C78_shallow_resize_user.
Print Assumptions ShallowProps.C78_shallow_assign_temporary.
Print Assumptions ShallowProps.C78_shallow_destroy.
Print Assumptions ShallowProps.C78_refuted_assignment_changes_its_target_only.
Print Assumptions SparseProps.C12_map_array_history.
Print Assumptions SparseProps.C12_map_array_push_back_order.
Print Assumptions SparseProps.C13_assignment_copies.
Print Assumptions SparseProps.C13_map_array_copy_constructor_refuted.
Print Assumptions SparseProps.C13_copying_destroys_source_refuted.
Print Assumptions SparseProps.C19_mapped_vector_history.
Print Assumptions SparseProps.C19_mapped_matrix_history.
Print Assumptions SparseProps.C19_mapped_matrix_resize_preserve_refuted.
Print Assumptions SparseProps.C19_mapped_vector_reserve_below_nnz_refuted.
Print Assumptions SparseProps.C19_mapped_vector_insert_out_of_range_refuted.
Print Assumptions SpecialProps.C60_vectors.
Print Assumptions SpecialProps.C60_matrices.
Print Assumptions SpecialProps.C60_end_checked.
Print Assumptions SpecialProps.C60_unit_vector_outside_refuted.
Print Assumptions SpecialProps.C60_identity_by_find.
Print Assumptions SpecialProps.C60_identity_by_find_refuted.
Print Assumptions SpecialProps.C60_identity_row_outside_refuted.
Print Assumptions StorageProps.C08_unbounded_array_history.
Print Assumptions StorageProps.C08_unbounded_array_resize_preserve.
Print Assumptions StorageProps.C08_resize_same_size.
Print Assumptions StorageProps.C09_bounded_array_history.
Print Assumptions StorageProps.C09_bounded_array_constructors.
Print Assumptions StorageProps.C09_bounded_array_unchecked.
Print Assumptions StorageProps.C08_array_adaptor_resize.
Print Assumptions StorageProps.C40_array_adaptor_ownership.
Print Assumptions StorageProps.C40_array_adaptor_assign.
Print Assumptions StorageProps.C40_array_adaptor_assign_temporary.
Print Assumptions StorageProps.C10_range_compose.
Print Assumptions StorageProps.C10_slice_compose.
Print Assumptions StorageProps.C10_slice_compose_range.
Print Assumptions StorageProps.C10_empty_tail_of_reversed_slice_refuted.
Print Assumptions StorageProps.C10_indirect_compose.
Print Assumptions StorageProps.C10_indirect_compose_checked_safe.
Print Assumptions TCtorProps.C70_extents.
Print Assumptions TCtorProps.C70_from_matrix.
Print Assumptions TCtorProps.C70_from_vector.
Print Assumptions TCtorProps.C70_static_rank_only_two.
Print Assumptions TCtorProps.C70_static_from_matrix.
Print Assumptions TCtorProps.C70_static_from_vector.
Print Assumptions TCtorProps.C70_static_short_vector_refuted.
Print Assumptions TCtorProps.C70_static_from_tensor.
Print Assumptions TCtorProps.C70_static_at_refuted.
Print Assumptions TCtorProps.C70_static_default.
Print Assumptions TCtorProps.C70_fill.
Print Assumptions TCtorProps.C70_assign_container.
Print Assumptions TCtorProps.C70_init.
Print Assumptions TCtorProps.C70_init_static.
Print Assumptions TMkProps.C77_constructed_from_expression.
Print Assumptions TMkProps.C77_constructed_from_mismatched_shapes_throws.
Print Assumptions TMkProps.C77_other_layout_refuted.
Print Assumptions TMkProps.C77_other_layout_keeps_storage.
Print Assumptions TMkProps.C77_constructed_from_matrix.
Print Assumptions TMkProps.C77_constructed_from_empty_matrix_throws.
Print Assumptions TMkProps.C77_constructed_from_vector.
Print Assumptions TMkProps.C77_value_assigned.
Print Assumptions TMkProps.C77_norm.
Print Assumptions TMkProps.C77_norm_same_in_both_layouts.
Print Assumptions TMkProps.C77_norm_of_inner_product.
Print Assumptions TMkProps.C77_norm_of_transposed.
Print Assumptions TMkProps.C77_norm_zero_only_for_zero.
Print Assumptions TMkProps.C77_norm_of_complex_refuted.
Print Assumptions TMkProps.C77_empty_tensor_throws.
Print Assumptions TMkProps.C77_real_imag_conj.
Print Assumptions TMkProps.C77_real_of_conj.
Print Assumptions TPrintProps.C69_text.
Print Assumptions TPrintProps.C69_static.
Print Assumptions TPrintProps.C69_vector.
Print Assumptions TPrintProps.C69_scalar.
Print Assumptions TPrintProps.C69_unambiguous.
Print Assumptions TPrintProps.C69_rank1_refuted.
Print Assumptions TPrintProps.C69_default_refuted.
Print Assumptions TensorExprProps.C42_equality.
Print Assumptions TensorExprProps.C42_relational.
Print Assumptions TensorExprProps.C42_inequality_refuted.
Print Assumptions TensorExprProps.C42_different_layouts_refuted.
Print Assumptions TensorExprProps.C42_static_rank_shapes_refuted.
Print Assumptions TensorExprProps.C43_expression_assignment.
Print Assumptions TensorExprProps.C43_shape_mismatch_throws.
Print Assumptions TensorExprProps.C43_mixed_layouts_refuted.
Print Assumptions TensorExprProps.C43_mixed_types_unchecked_refuted.
Print Assumptions TensorExprProps.C44_reshape.
Print Assumptions TensorExprProps.C44_reshape_back.
Print Assumptions TensorMulProps.C37_tensor_times_vector.
Print Assumptions TensorMulProps.C37_tensor_times_matrix.
Print Assumptions TensorMulProps.C37_tensor_times_tensor.
Print Assumptions TensorMulProps.C37_tensor_times_tensor_no_modes.
Print Assumptions TensorMulProps.C37_inner_prod.
Print Assumptions TensorMulProps.C37_outer_prod.
Print Assumptions TensorMulProps.C37_ttt_kernel_last_modes.
Print Assumptions TensorMulProps.C38_tensor_times_vector_rejects.
Print Assumptions TensorMulProps.C38_tensor_times_matrix_rejects.
Print Assumptions TensorMulProps.C38_empty_matrix_rejected.
Print Assumptions TensorMulProps.C38_tensor_times_tensor_rejects.
Print Assumptions TensorMulProps.C38_tensor_times_tensor_safe.
Print Assumptions TensorMulProps.C38_inner_prod_rejects.
Print Assumptions TensorMulProps.C38_outer_prod_rejects_low_rank.
Print Assumptions TensorMulProps.C38_tensor_times_matrix_rank_1_refuted.
Print Assumptions TensorMulProps.C38_repeated_modes_refuted.
Print Assumptions TensorMulProps.C38_static_rank_inner_prod_refuted.
Print Assumptions TensorMulProps.C38_static_rank_low_result_refuted.
Print Assumptions TensorMulProps.C38_ttt_kernel_guard_refuted.
Print Assumptions TensorMulProps.C38_ttt_kernel_rank_1_refuted.
Print Assumptions TensorMulProps.C45_einstein_contraction.
Print Assumptions TensorMulProps.C45_einstein_identical_labels.
Print Assumptions TensorMulProps.C45_no_common_label_refuted.
Print Assumptions TensorProps.C33_strides_address_every_element_once.
Print Assumptions TensorProps.C33_static_strides.
Print Assumptions TensorProps.C33_oversized_shape_refuted.
Print Assumptions TensorProps.C34_multi_index_and_linear_index.
Print Assumptions TensorProps.C34_wrong_number_of_indices_throws.
Print Assumptions TensorProps.C34_at_checks_components_refuted.
Print Assumptions TensorProps.C35_copy_and_transform.
Print Assumptions TensorProps.C35_copy_succeeds.
Print Assumptions TensorProps.C35_accumulate.
Print Assumptions TensorProps.C35_extent_of_2_32_refuted.
Print Assumptions TensorProps.C36_trans_kernel.
Print Assumptions TensorProps.C36_trans.
Print Assumptions TensorProps.C36_inverse_restores.
Print Assumptions TensorProps.C36_non_permutation_rejected.
Print Assumptions TensorProps.C36_rank_1_refuted.
Print Assumptions TriProps.C25_inplace_solve.
Print Assumptions TriProps.C25_inplace_solve_left.
Print Assumptions TriProps.C25_inplace_solve_matrix.
Print Assumptions TriProps.C25_zero_pivot_raises.
Print Assumptions TriProps.C25_bad_sizes_rejected.
Print Assumptions VVIterProps.C59_traverse_along.
Print Assumptions VVIterProps.C59_traverse_across_and_reverse.
Print Assumptions VVIterProps.C59_assign.
Print Assumptions VVIterProps.C59_end_checked.
Print Assumptions VVIterProps.C59_checked_across_and_reverse_refuted.
Print Assumptions VVIterProps.C59_reverse_across_coordinate.
Print Assumptions VVIterProps.C59_reverse_across_compressed_refuted.
Print Assumptions VVIterProps.C59_reverse_across_mapped_refuted.
Print Assumptions VVProps.C58_vector_of_mapped_history.
Print Assumptions VVProps.C58_vector_of_compressed_history.
Print Assumptions VVProps.C58_vector_of_coordinate_history.
Print Assumptions VVProps.C58_default_constructor.
Print Assumptions VVProps.C58_rejects.
Print Assumptions VVProps.C58_out_of_range_read_gives_zero_refuted.
Print Assumptions VVProps.C58_shrink_after_append_throws_refuted.
Print Assumptions VexProps.C41_traverse.
Print Assumptions VexProps.C41_find.
Print Assumptions VexProps.C41_assign.
Print Assumptions VexProps.C41_reverse_dense.
Print Assumptions VexProps.C41_size_mismatch.
Print Assumptions VexProps.C41_reverse_packed_refuted.
Print Assumptions VexProps.C41_reverse_sparse_refuted.
Print Assumptions VexProps.C41_skips_zero_positions.
Print Assumptions ViewIterProps.C55_elements.
Print Assumptions ViewIterProps.C55_visited_positions.
Print Assumptions ViewIterProps.C55_views_are_well_formed.
Print Assumptions ViewIterProps.C55_vector_loop.
Print Assumptions ViewIterProps.C55_vector_reverse_loop.
Print Assumptions ViewIterProps.C55_vector_random_access.
Print Assumptions ViewIterProps.C55_matrix_loop.
Print Assumptions ViewIterProps.C55_matrix_reverse_loop.
Print Assumptions ViewIterProps.C55_matrix_random_access.
Print Assumptions ViewIterProps.C55_view_like_container.
Print Assumptions ViewIterProps.C55_checked_end.
Print Assumptions VoVIterProps.C68_traverse.
Print Assumptions VoVIterProps.C68_fill.
Print Assumptions VoVIterProps.C68_random_access.
Print Assumptions VoVIterProps.C68_other_line_raises.
Print Assumptions VoVIterProps.C68_assigned_iterator_refuted.
Print Assumptions VoVIterProps.C68_less_refuted.
Print Assumptions VoVIterProps.C68_count.
Print Assumptions VoVIterProps.C68_empty_rows_refuted.
Print Assumptions VoVProps.C67_history.
Print Assumptions VoVProps.C67_checked_range.
Print Assumptions VoVProps.C67_new.
Print Assumptions VoVProps.C67_new_elements_zero.
Print Assumptions VoVProps.C67_hidden_origin.
Print Assumptions VoVProps.C67_resurrected_row_refuted.

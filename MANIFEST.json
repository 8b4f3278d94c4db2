{"claims": [
  {"property": "C01", "status": "proved", "theorems": ["C01_mixed_types", "C01_scaled_vector_read", "C01_scaled_matrix_read", "C01_scaled_vector", "C01_scaled_matrix", "C01_scaled_vector_lazy", "C01_scaled_matrix_lazy", "C01_scaled_shape"], "note": ""},
  {"property": "C02", "status": "proved", "theorems": ["C02_conjugated_vector", "C02_conjugated_matrix", "C02_conjugated_shape", "C02_conjugated_vector_twice", "C02_conjugated_matrix_twice"], "note": ""},
  {"property": "C03", "status": "partial", "theorems": ["C03_transposed_cells", "C03_transposed_shape", "C03_transposed_reads", "C03_transposed_defined", "C03_transposed_twice_partial", "C03_transposed_twice_defined", "C03_transposed_twice_refuted"], "note": "transposed() is proved for every layout. Transposing twice: proved wherever the second transposed() compiles; refuted for generic layouts and padded layouts without the macro, where transposed_layout<layout_transpose<N>> has no member mapping."},
  {"property": "C04", "status": "partial", "theorems": ["C04_conjugate_transposed", "C04_conjugate_transposed_twice_partial", "C04_conjugate_transposed_twice_refuted"], "note": "Single application proved for every layout and accessor; twice: as C03, proved where the expression compiles, refuted (does not compile) for generic layouts."},
  {"property": "C05", "status": "proved", "theorems": ["C05_transposed_offset", "C05_transposed_span", "C05_transposed_unique", "C05_transposed_stride", "C05_transposed_valid", "C05_offset_by_strides", "C05_offset_in_span", "C05_standard_layouts_unique"], "note": ""},
  {"property": "C06", "status": "proved", "theorems": ["C06_copy_vector", "C06_copy_matrix"], "note": ""},
  {"property": "C07", "status": "proved", "theorems": ["C07_swap_vector", "C07_swap_matrix", "C07_swap_vector_twice", "C07_swap_matrix_twice"], "note": ""},
  {"property": "C08", "status": "proved", "theorems": ["C08_scale_vector", "C08_scale_matrix"], "note": ""},
  {"property": "C09", "status": "proved", "theorems": ["C09_add_vector", "C09_add_matrix"], "note": ""},
  {"property": "C10", "status": "proved", "theorems": ["C10_dot", "C10_dotc", "C10_no_init", "C10_dot_init_plus"], "note": ""},
  {"property": "C11", "status": "proved", "theorems": ["C11_abs_sum_order", "C11_abs_sum_real", "C11_abs_sum_complex", "C11_abs_sum_at_least_init", "C11_abs_sum_noinit"], "note": ""},
  {"property": "C12", "status": "proved", "theorems": ["C12_idx_abs_max"], "note": ""},
  {"property": "C13", "status": "proved", "theorems": ["C13_sum_of_squares"], "note": ""},
  {"property": "C14", "status": "proved", "theorems": ["C14_two_norm", "C14_two_norm_noinit"], "note": ""},
  {"property": "C15", "status": "partial", "theorems": ["C15_frob_norm_partial", "C15_frob_norm_noinit_partial", "C15_frob_norm_overestimates_partial", "C15_frob_norm_refuted", "C15_frob_norm_right_iff"], "note": "Refuted by A = [2 1] (returns 2*sqrt(5)): the quotient scale/|a_ij| is used in both branches (blas1_matrix_frob_norm.hpp:112-120). Proved: never below the true norm, and right if and only if the nonzero magnitudes do not decrease in row-major order (C15_frob_norm_right_iff)."},
  {"property": "C16", "status": "proved", "theorems": ["C16_inf_norm", "C16_one_norm", "C16_noinit", "C16_transposed", "C16_rmax0_is_max"], "note": ""},
  {"property": "C17", "status": "proved", "theorems": ["C17_real_rotation", "C17_special_values"], "note": ""},
  {"property": "C18", "status": "partial", "theorems": ["C18_complex_rotation_partial", "C18_complex_rotation_refuted", "C18_r_right_iff"], "note": "c and s proved right for all arguments (c^2+|s|^2 = 1 up to machine epsilon in the documented approximation branch, exactly 1 elsewhere); r proved right if and only if some component exceeds safmn2^2 in magnitude (or an argument is zero); below that it is too large by safmn2^-n, n >= 2 (C18_r_right_iff): the loop of blas1_givens.hpp:366 that undoes the scaling does not run when the arguments were scaled more than once."},
  {"property": "C19", "status": "partial", "theorems": ["C19_real_returns_partial", "C19_complex_returns_partial", "C19_real_returns_refuted", "C19_complex_returns_refuted"], "note": "IEEE-754 (Flocq), any format: returns after at most three scaling rounds when no argument is infinite (NaN included); refuted for infinite arguments, for which the scaling loop never ends."},
  {"property": "C20", "status": "proved", "theorems": ["C20_apply_givens_real", "C20_apply_givens_complex", "C20_norm_preserved_real", "C20_norm_preserved_complex", "C20_inverse_real", "C20_inverse_complex"], "note": ""},
  {"property": "C21", "status": "proved", "theorems": ["C21_gemv"], "note": ""},
  {"property": "C22", "status": "proved", "theorems": ["C22_gemv_updating"], "note": ""},
  {"property": "C23", "status": "proved", "theorems": ["C23_symv", "C23_symv_updating"], "note": "Proved without any algebraic law: same order of operations as the general product."},
  {"property": "C24", "status": "proved", "theorems": ["C24_hemv", "C24_hemv_updating"], "note": ""},
  {"property": "C25", "status": "proved", "theorems": ["C25_trmv_exact", "C25_trmv_updating_exact", "C25_trmv", "C25_trmv_updating", "C25_trmv_inplace", "C25_forms_agree"], "note": "Exact (law-free) theorems for the overwriting and updating forms; the in-place form needs a commutative ring because the code multiplies y(j)*A(j,j)."},
  {"property": "C26", "status": "proved", "theorems": ["C26_trsv_divide", "C26_trsv"], "note": ""},
  {"property": "C27", "status": "proved", "theorems": ["C27_solve_after_multiply", "C27_multiply_after_solve"], "note": ""},
  {"property": "C28", "status": "partial", "theorems": ["C28_empty_solve_partial", "C28_empty_solve_refuted", "C28_empty_solve_u32_always_fails", "C28_empty_left_solve_partial", "C28_empty_right_solve", "C28_empty_left_solve_u32_fails"], "note": "Refuted for the upper triangle with a 32-bit unsigned size type (loop start wraps to 2^32-1), for the vector solve and the left matrix solve; proved for every other index type, for the lower triangle and for the right matrix solve."},
  {"property": "C29", "status": "proved", "theorems": ["C29_ger", "C29_gerc"], "note": ""},
  {"property": "C30", "status": "proved", "theorems": ["C30_syr_alpha", "C30_syr", "C30_syr2"], "note": ""},
  {"property": "C31", "status": "proved", "theorems": ["C31_her_alpha", "C31_her", "C31_her2", "C31_her_alpha_real_diagonal", "C31_her_real_diagonal", "C31_her2_real_diagonal", "C31_complex_alpha_refuted"], "note": "The statement is proved in full; C31_complex_alpha_refuted only documents that the real-alpha hypothesis of the diagonal claim is necessary."},
  {"property": "C32", "status": "proved", "theorems": ["C32_gemm", "C32_gemm_transposed"], "note": "Law-free; the transposed-view consequence needs only commutative multiplication."},
  {"property": "C33", "status": "proved", "theorems": ["C33_gemm_updating"], "note": ""},
  {"property": "C34", "status": "proved", "theorems": ["C34_trmm_left", "C34_trmm_right"], "note": "Any non-commutative ring; every index type that can represent the extents."},
  {"property": "C35", "status": "proved", "theorems": ["C35_left_inplace", "C35_right_inplace"], "note": ""},
  {"property": "C36", "status": "proved", "theorems": ["C36_symm_left", "C36_symm_right"], "note": ""},
  {"property": "C37", "status": "partial", "theorems": ["C37_hemm_left", "C37_hemm_right_partial", "C37_hemm_right_exact", "C37_hemm_right_refuted"], "note": "Left product proved. Right product refuted: the stored diagonal is used unchanged (blas3_matrix_product.hpp); proved for a real diagonal, and the exact result is characterised in all cases."},
  {"property": "C38", "status": "partial", "theorems": ["C38_updating_refuted", "C38_updating_always_asserts_partial"], "note": "Refuted: the bodies are assert(false) stubs; with assertions disabled they leave C unchanged."},
  {"property": "C39", "status": "proved", "theorems": ["C39_syrk_alpha", "C39_syrk", "C39_syr2k"], "note": ""},
  {"property": "C40", "status": "proved", "theorems": ["C40_herk_alpha", "C40_herk", "C40_her2k", "C40_herk_alpha_real_diagonal", "C40_herk_real_diagonal", "C40_her2k_real_diagonal", "C40_complex_alpha_refuted"], "note": "Proved in full; C40_complex_alpha_refuted only documents that the real-alpha hypothesis of the diagonal claim is necessary."},
  {"property": "C41", "status": "proved", "theorems": ["C41_trsm_left", "C41_trsm_left_ring", "C41_columns"], "note": "Excluded: 0x0 upper systems with a 32-bit unsigned size type (C28)."},
  {"property": "C42", "status": "proved", "theorems": ["C42_trsm_right", "C42_trsm_right_ring", "C42_trsm_side"], "note": "Lower triangle: extent representable in the signed counterpart of the index type (otherwise see C43). C42_trsm_side: the overload with a side."},
  {"property": "C43", "status": "partial", "theorems": ["C43_index_types_partial", "C43_boundary_partial", "C43_index_types_refuted", "C43_narrow_unsigned_does_nothing"], "note": "Refuted: with unsigned 8/16/32-bit index types and an extent above the signed maximum + 1 the lower-triangle loop body never runs. Proved for all signed types, 64-bit types, the upper triangle, and extents up to the signed maximum, for 8 and 16 bits up to the signed maximum + 1, so every extent of these is settled (C43_boundary_partial). Left: 32 bits and extent 2^31, where the code overflows an int."},
  {"property": "C44", "status": "partial", "theorems": ["C44_dispatch_partial", "C44_inline", "C44_without_policy", "C44_no_custom_partial", "C44_rejected_policies", "C44_matrix_product_always_inline", "C44_one_sided_products", "C44_matrix_product_refuted", "C44_one_sided_products_refuted", "C44_no_custom_refuted", "C44_side_solve_refuted", "C44_lvalue_policy_refuted", "C44_self_mapped_refuted", "C44_chain_refuted", "C44_cycle_refuted"], "note": "Proved for every algorithm whose policy overload tests and calls its own name. Refuted: a custom overwriting matrix_product is never chosen; the one-sided products test one name and call another; the solve with a side tests the right solve; rank-1/rank-k overloads reject an lvalue standard policy; longer, self-mapped or cyclic policy chains are followed when an argument lies in the library namespace. C++ overload resolution is modelled as stated at the top of Dispatch.v."},
  {"property": "C45", "status": "proved", "theorems": ["C45_matrix_traversal", "C45_triangle_traversal", "C45_completes", "C45_no_infinite_schedule"], "note": "Every interleaving of single loads and stores; race freedom and absence of out-of-range access are part of par_succeeds. Triangle traversal: square matrices, as its callers check."},
  {"property": "C46", "status": "proved", "theorems": ["C46_kk_ger", "C46_kk_gerc", "C46_kk_syr", "C46_kk_syr2", "C46_kk_syrk", "C46_kk_syr2k", "C46_kk_ger_same_as_inline", "C46_kk_gerc_same_as_inline", "C46_kk_syr_same_as_inline", "C46_kk_syr2_same_as_inline", "C46_kk_syrk_same_as_inline", "C46_kk_syr2k_same_as_inline", "C46_kk_ger_throws", "C46_kk_gerc_throws", "C46_kk_syr_throws", "C46_kk_syr2_throws", "C46_kk_syrk_throws", "C46_kk_syr2k_throws"], "note": "General and symmetric rank updates; law-free. mdspans whose layout the views reproduce (see C55)."},
  {"property": "C47", "status": "partial", "theorems": ["C47_kk_her_partial", "C47_kk_her2_partial", "C47_kk_herk_partial", "C47_kk_her2k_partial", "C47_kk_her_same_as_inline_partial", "C47_kk_her2_same_as_inline_partial", "C47_kk_herk_same_as_inline_partial", "C47_kk_her2k_same_as_inline_partial", "C47_kk_her_throws", "C47_kk_her2_throws", "C47_kk_herk_throws", "C47_kk_her2k_throws", "C47_hermitian_rank_1_refuted", "C47_hermitian_rank_2_refuted", "C47_hermitian_rank_k_refuted", "C47_hermitian_rank_2k_refuted"], "note": "Refuted: the Kokkos Hermitian updates keep the imaginary part of the stored diagonal, the inline ones drop it. Proved for real stored diagonals; exact results characterised in all cases."},
  {"property": "C48", "status": "partial", "theorems": ["C48_kk_gemv_updating_value_partial", "C48_kk_gemv_updating_same_as_inline_partial", "C48_kk_gemv_updating_throws", "C48_kk_gemv_updating_refuted"], "note": "Refuted: y is added once per column. The value actually computed is characterised; equality with the inline algorithm proved for one column or zero y."},
  {"property": "C49", "status": "proved", "theorems": ["C49_kk_trmm_left", "C49_kk_trmm_right", "C49_kk_trmm_left_inplace", "C49_kk_trmm_right_inplace", "C49_kk_trmm_left_same_as_inline", "C49_kk_trmm_right_same_as_inline"], "note": "Implicit-unit products (own loops) in any non-commutative ring, including in place; explicit diagonals delegate to KokkosBlas::trmm, which is not in /repo."},
  {"property": "C50", "status": "partial", "theorems": ["C50_kk_symv", "C50_kk_symv_same_as_inline", "C50_kk_symv_upd", "C50_kk_symv_upd_same_as_inline", "C50_kk_trmv", "C50_kk_trmv_product", "C50_kk_trmv_same_as_inline", "C50_kk_trmv_upd", "C50_kk_trmv_upd_same_as_inline", "C50_kk_hemv_stored_partial", "C50_kk_hemv_partial", "C50_kk_hemv_same_as_inline_partial", "C50_kk_hemv_upd_partial", "C50_kk_hemv_upd_same_as_inline_partial", "C50_kk_hemv_refuted", "C50_kk_symmetric_mv_throws", "C50_kk_symmetric_mv_upd_throws", "C50_kk_hermitian_mv_throws", "C50_kk_hermitian_mv_upd_throws", "C50_kk_trmv_throws", "C50_kk_trmv_upd_throws"], "note": "symv and trmv proved. hemv refuted for stored diagonals with a nonzero imaginary part; proved for real ones."},
  {"property": "C51", "status": "partial", "theorems": ["C51_kk_symmetric_left_throws", "C51_kk_symmetric_right_throws", "C51_kk_symmetric_left_updating_throws", "C51_kk_hermitian_left_throws", "C51_kk_hermitian_right_throws", "C51_kk_hermitian_left_updating_throws", "C51_kk_symmetric_right_updating_throws", "C51_kk_trmm_left_throws", "C51_kk_trmm_right_throws", "C51_kk_trmm_left_inplace_throws", "C51_kk_trmm_right_inplace_throws", "C51_kk_hermitian_right_updating_throws_partial", "C51_hermitian_right_updating_refuted"], "note": "Throws exactly on mismatch for every product; refuted for the updating Hermitian right product, which does not check E."},
  {"property": "C52", "status": "partial", "theorems": ["C52_completes", "C52_abs_sum_value", "C52_abs_sum_same_partial", "C52_abs_sum_complex_refuted", "C52_norm2_value", "C52_norm2_same_partial", "C52_norm2_init_refuted", "C52_inf_norm_same", "C52_one_norm_same_partial", "C52_one_norm_no_rows_refuted", "C52_frob_norm_value_partial", "C52_frob_norm_init", "C52_frob_norm_same_refuted", "C52_frob_norm_transposed_partial", "C52_one_norm_transposed_is_inf_norm", "C52_inf_norm_transposed_is_one_norm", "C52_transposed_norms_refuted", "C52_frob_norm_zero_matrix_refuted", "C52_sum_of_squares_partial", "C52_sum_of_squares_refuted", "C52_sum_of_squares_empty_refuted"], "note": "inf_norm proved. Refuted: abs_sum for complex elements (modulus instead of |re|+|im|), norm2 with init != 0, one_norm of a matrix without rows (out-of-range read), sum_of_squares with a dominant or lone init, frob_norm (differs from the inline one, which is itself wrong; NaN for a zero matrix in binary64). Exact values characterised otherwise. For layout_transpose matrices the Frobenius norm (init 0) is right, the one norm and the infinity norm are exchanged (refuted, exact values proved)."},
  {"property": "C53", "status": "proved", "theorems": ["C53_left_solve_after_product", "C53_left_product_after_solve", "C53_right_solve_after_product", "C53_right_product_after_solve"], "note": ""},
  {"property": "C54", "status": "proved", "theorems": ["C54_scaled_sum_bounded"], "note": ""},
  {"property": "C55", "status": "partial", "theorems": ["C55_views_partial", "C55_vector_view_faithful_iff_contiguous", "C55_transposed_view_is_untransposed_partial", "C55_strided_vector_refuted", "C55_transposed_matrix_refuted"], "note": "Refuted with a strided vector and with a transposed matrix; proved for contiguous vectors and layout_left/right matrices."},
  {"property": "C56", "status": "partial", "theorems": ["C56_kk_symm_left", "C56_kk_symm_left_upd", "C56_kk_symm_right", "C56_kk_symm_right_upd", "C56_kk_symm_left_same_as_inline", "C56_kk_symm_right_same_as_inline", "C56_kk_hemm_left_partial", "C56_kk_hemm_left_upd_partial", "C56_kk_hemm_right_partial", "C56_kk_hemm_right_upd_partial", "C56_kk_hemm_left_same_as_inline_partial", "C56_kk_hemm_left_refuted"], "note": "Symmetric products proved (law-free); Hermitian products proved for real stored diagonals, refuted otherwise (conj(A(i,i)) is used)."},
  {"property": "C57", "status": "proved", "theorems": ["C57_dot", "C57_dot_mismatch", "C57_copy", "C57_swap_vectors", "C57_swap_matrices", "C57_swap_vectors_mismatch", "C57_swap_matrices_mismatch", "C57_copy_without_extent_check"], "note": "dot needs commutative, associative addition (any reduction tree). Refuted part: copy does not check extents. copy between equal layouts (Kokkos::deep_copy) and the conjugated dot (KokkosBlas::dot) are outside /repo."},
  {"property": "C58", "status": "proved", "theorems": ["C58_gemv", "C58_gemm", "C58_ger", "C58_gerc", "C58_trmv", "C58_trsv", "C58_trsm_left", "C58_trsm_right"], "note": ""},
  {"property": "C59", "status": "proved", "theorems": ["C59_dot", "C59_dot_noinit", "C59_gemv", "C59_gemv_upd", "C59_gemm", "C59_gemm_upd"], "note": ""},
  {"property": "C60", "status": "proved", "theorems": ["C60_trsv", "C60_trsm_left", "C60_trsm_right"], "note": ""},
  {"property": "C61", "status": "proved", "theorems": ["C61_trsv", "C61_trsm_left", "C61_trsm_right"], "note": ""},
  {"property": "C62", "status": "proved", "theorems": ["C62_sum_of_squares", "C62_two_norm", "C62_two_norm_noinit"], "note": "Per binary format; magnitudes (abs) are those of good_mags: finite, non-negative. Error terms ssq_err in SpecF.v."},
  {"property": "C63", "status": "partial", "theorems": ["C63_two_norm_nan", "C63_two_norm_finite", "C63_two_norm_inf_partial", "C63_two_norm_inf_refuted", "C63_two_norm_two_inf", "C63_abs_sum_nan", "C63_abs_sum_inf", "C63_inf_norm_inf_partial", "C63_one_norm_inf_partial", "C63_inf_norm_nan_refuted", "C63_one_norm_nan_refuted", "C63_inf_norm_after_nan", "C63_one_norm_after_nan", "C63_idx_abs_max_partial", "C63_idx_abs_max_first_nan"], "note": "Proved for vector_two_norm (NaN, one infinity), vector_abs_sum, vector_idx_abs_max without NaN or with a NaN first. Refuted: two_norm is NaN as soon as two elements are infinite (C63_two_norm_two_inf); matrix_inf_norm and matrix_one_norm lose a NaN and with it earlier larger sums (std::max(sum, result)): the result is the largest sum after the last line with a NaN, and NaN only if there is none (C63_inf_norm_after_nan, C63_one_norm_after_nan). Infinite matrix entries proved when no row/column sum is NaN."},
  {"property": "C64", "status": "partial", "theorems": ["C64_abs_sum", "C64_dot", "C64_norm2_partial", "C64_norm2_overflow_refuted", "C64_norm2_underflow_refuted"], "note": "abs_sum and dot proved over all reduction trees. norm2: rounded root of an accurate sum; freedom from overflow and underflow refuted ((2^600) gives infinity, (2^-600) gives 0; the inline norm is exact)."},
  {"property": "C65", "status": "proved", "theorems": ["C65_abs_sum", "C65_abs_sum_complex", "C65_inf_norm", "C65_one_norm"], "note": "Real and complex sums, both matrix norms."},
  {"property": "C66", "status": "partial", "theorems": ["C66_conversion", "C66_abs_sum", "C66_two_norm", "C66_dot_partial", "C66_dot_overflow_refuted", "C66_dot_refuted"], "note": "abs_sum and two_norm proved in full. dot: sums in the wide type, products rounded to the narrow type; products in the precision of init refuted (2^100 * 2^100 in float gives infinity; (1+2^-12)^2 loses 2^-24)."},
  {"property": "C67", "status": "partial", "theorems": ["C67_unsigned_ring", "C67_unsigned_dot", "C67_unsigned_matrix_product", "C67_signed_dot", "C67_signed_matrix_vector_product", "C67_signed_matrix_product", "C67_signed_abs_sum", "C67_signed_inf_norm", "C67_signed_one_norm", "C67_signed_idx_abs_max", "C67_two_norm_refuted", "C67_frob_norm_refuted"], "note": "Unsigned and signed proved; 2-norm and Frobenius norm refuted: the scaling divides in the integer type, (3,4) gives 4. Types narrower than int: see C83 for promotion; the norms themselves are modelled for types not promoted."},
  {"property": "C68", "status": "partial", "theorems": ["C68_kk_add_vectors", "C68_kk_add_matrices", "C68_kk_scale_vector", "C68_kk_scale_matrix", "C68_kk_copy_vector", "C68_kk_copy_matrix", "C68_kk_dotc", "C68_kk_idx_abs_max", "C68_kk_gemv_partial", "C68_kk_gemm_partial", "C68_kk_add_vectors_throws", "C68_kk_add_matrices_throws", "C68_kk_dotc_throws", "C68_kk_gemv_throws", "C68_kk_gemm_throws", "C68_kk_gemv_transposed_refuted", "C68_kk_gemm_transposed_result_refuted", "C68_kk_gemm_both_transposed_refuted", "C68_kk_gemv_scaled_y_refuted"], "note": "Proved for untransposed operands and, for matrix_product, one transposed operand and any accessors. Refuted: gemv with layout_transpose A (used untransposed), matrix_product with layout_transpose C (transpose stored), both operands transposed (ambiguous call), updating gemv with scaled or conjugated y (calls a member that does not exist)."},
  {"property": "C69", "status": "partial", "theorems": ["C69_kk_trsv", "C69_kk_trsm_left", "C69_kk_trsm_right", "C69_kk_trmm_left_partial", "C69_kk_trmm_right_partial", "C69_kk_trmm_left_inplace_partial", "C69_kk_trmm_right_inplace_partial", "C69_kk_trsv_throws", "C69_kk_trsm_left_throws", "C69_kk_trsm_right_throws", "C69_kk_trmm_left_throws", "C69_kk_trmm_right_throws", "C69_kk_trmm_blas_triangle_refuted", "C69_kk_trsm_reversed_triangle_refuted", "C69_kk_uplo_refuted"], "note": "Solves proved for \"L\"/\"U\" as in the BLAS, products for \"L\"/\"U\" exchanged; refuted that any one meaning of \"L\" makes both right (trmm_kk passes \"U\" for the lower triangle, trsm passes \"L\")."},
  {"property": "C70", "status": "proved", "theorems": ["C70_symv", "C70_symv_upd", "C70_symm_left", "C70_symm_right", "C70_trmv", "C70_trmv_upd", "C70_trmm_left", "C70_trmm_right", "C70_ger", "C70_syr", "C70_syr_alpha", "C70_syr2", "C70_syrk", "C70_syrk_alpha", "C70_syr2k"], "note": ""},
  {"property": "C71", "status": "proved", "theorems": ["C71_dot", "C71_dotc", "C71_gemv", "C71_gemv_upd", "C71_gemm", "C71_gemm_upd", "C71_hemv", "C71_hemv_upd", "C71_symv", "C71_hemm_left", "C71_ger", "C71_gerc", "C71_her", "C71_her2", "C71_herk", "C71_her2k", "C71_symv_upd", "C71_symm_left", "C71_symm_right", "C71_hemm_right", "C71_syr", "C71_syr2", "C71_syrk", "C71_syr2k", "C71_syr_alpha", "C71_her_alpha", "C71_syrk_alpha", "C71_herk_alpha", "C71_trmv", "C71_trmv_upd", "C71_trmm_left", "C71_trmm_right", "C71_trsv", "C71_trsm_left", "C71_trsm_right"], "note": ""},
  {"property": "C72", "status": "partial", "theorems": ["C72_transposed_extents", "C72_transposed_extents_twice", "C72_valid_vectors_compile", "C72_valid_matrices_compile", "C72_valid_add_vectors_compile", "C72_valid_add_matrices_compile", "C72_static_vectors", "C72_static_matrices", "C72_static_add", "C72_static_add_dynamic_result", "C72_vectors_compile", "C72_matrices_compile", "C72_add_compiles", "C72_add_matrices_compile", "C72_products_unchecked_refuted", "C72_matrix_product_unchecked_refuted"], "note": "Proved for transposed, dot, givens_rotation_apply, copy, swap_elements, add. Refuted for the products: they make no compile-time check, so a 2x3 matrix times a vector of 4 compiles."},
  {"property": "C73", "status": "partial", "theorems": ["C73_strided", "C73_span", "C73_unique_partial", "C73_contiguous", "C73_unique_refuted", "C73_default_leading_dimension", "C73_leading_dimension_partial", "C73_leading_dimension_always_wrong", "C73_leading_dimension_refuted", "C73_transposed_partial", "C73_transposed_always_wrong", "C73_transposed_refuted"], "note": "Span, strides and distinct offsets proved for a positive leading dimension; without one the layout is layout_left or layout_right. Refuted: the offset is LDA times the packed offset, wrong for every matrix with two rows and two columns; is_unique() is true for LDA = 0; transposed() moves elements."},
  {"property": "C74", "status": "proved", "theorems": ["C74_rotation", "C74_rotates", "C74_exact", "C74_apply"], "note": "Results are characterised whenever the function returns; that it returns is C19_real_returns_partial."},
  {"property": "C75", "status": "proved", "theorems": ["C75_gemv", "C75_gemv_updating", "C75_symv", "C75_trmv", "C75_trmv_inplace", "C75_ger", "C75_gemm", "C75_gemm_updating", "C75_symm_left", "C75_symm_right", "C75_trmm_left_inplace", "C75_trmm_right_inplace", "C75_syrk", "C75_syr2k", "C75_trsv", "C75_trsm_left", "C75_trsm_right", "C75_transposed", "C75_lu_solve", "C75_cholesky_solve"], "note": "Index types as in C26, C41, C42 (fits; empty upper solves with a 32-bit unsigned index excluded, see C28). Hermitian operations are not included: conjugation is the identity here; C100 has them."},
  {"property": "C76", "status": "proved", "theorems": ["C76_dot", "C76_matrix_product", "C76_scale", "C76_abs_sum", "C76_solve", "C76_solve_exact", "C76_matrix_solve_exact", "C76_solve_zero_diagonal", "C76_matrix_solve", "C76_right_solve", "C76_right_solve_exact", "C76_matrix_solve_zero_diagonal", "C76_right_solve_zero_diagonal"], "note": "Exact characterisation of undefined behaviour for dot, the updating product, scale, abs_sum; for the solves sufficient conditions. Types narrower than int (promoted): C83."},
  {"property": "C77", "status": "partial", "theorems": ["C77_value_partial", "C77_operators_partial", "C77_functions_partial", "C77_mixed_types_refuted"], "note": "Proved when one type is used throughout (every ReferenceValue is t and factor * t is a t). Refuted otherwise: scaled_scalar<double, int&, int> converts its product to int, although its value_type is double. atomic_ref is not modelled."},
  {"property": "C78", "status": "partial", "theorems": ["C78_copy_partial", "C78_swap_partial", "C78_scale_partial", "C78_add_partial", "C78_compiles", "C78_rank_0", "C78_rank_0_refuted"], "note": "Proved for ranks 1 and 2, and exactly which ranks compile. Refuted for rank 0: all four algorithms compile and do nothing, although a rank-0 mdspan has one element."},
  {"property": "C79", "status": "partial", "theorems": ["C79_library_loops_partial", "C79_side_solve", "C79_side_solve_refuted"], "note": "Proved for every algorithm but the triangular solve with a side argument. That one drops its policy and calls the one-sided solve without a policy (blas3_triangular_matrix_matrix_solve.hpp:438, 441), so it runs the custom implementation of the policy the default one is mapped to; characterised exactly and refuted."},
  {"property": "C80", "status": "partial", "theorems": ["C80_trsv", "C80_trsm_right", "C80_trsm_left", "C80_left_is_trsv_partial", "C80_left_lower_refuted"], "note": "Proved for the vector solve, the right solves and the upper left solve. The lower left solve accumulates in the element type of X (blas3_triangular_matrix_matrix_solve.hpp:120): characterised exactly; equality with the vector solve refuted (float X, double A and B: 0 instead of 2^-32)."},
  {"property": "C81", "status": "partial", "theorems": ["C81_elementwise", "C81_dot", "C81_gemv", "C81_gemv_updating", "C81_gemm", "C81_gemm_updating", "C81_ger", "C81_dot_once_partial", "C81_gemv_once_partial", "C81_gemm_once_partial", "C81_once_refuted"], "note": "All functions characterised exactly: every partial sum is converted to the type of the output (of init for dot). That is the sum converted once when the output is at least as wide as the terms (partial theorems); for narrower outputs it is refuted (float y = 1 instead of 1 + 2^-23; dot of (1/2,1/2) and (1,1) with int init is 0)."},
  {"property": "C82", "status": "partial", "theorems": ["C82_updates", "C82_matrix_vector_products", "C82_matrix_products", "C82_copy_swap", "C82_return", "C82_does_return", "C82_trmm_partial", "C82_trmm_refuted", "C82_trmm_others_refuted", "C82_trmm_early", "C82_library_refuted", "C82_library_copy_refuted"], "note": "Proved for the 28 overloads that end with a fence (updates, matrix-vector and matrix-matrix products, copy, swap), which also carries C45-C55 over to asynchronous spaces. Refuted for the triangular products (none of the four overloads fences, any call may return before anything is done; complete after a fence of the caller: partial theorem) and for all overloads ending with a KokkosBlas call."},
  {"property": "C83", "status": "partial", "theorems": ["C83_scale", "C83_add", "C83_dot", "C83_dot_without_init", "C83_gemv", "C83_gemv_updating", "C83_gemm", "C83_gemm_updating", "C83_ger", "C83_defined_partial", "C83_defined_refuted"], "note": "Exact characterisation for every type: reduced exact result if no operation overflows in int (or the wider element type), undefined otherwise. Never undefined for signed types of up to 16, unsigned of up to 15 and unsigned of at least 32 bits (partial theorem); refuted for unsigned 16-bit types, whose products are computed in int: 65535*65535 overflows. Operands of one type; the mixed case is C81."},
  {"property": "C84", "status": "proved", "theorems": ["C84_common_type", "C84_copy_1", "C84_copy_2", "C84_swap_1", "C84_swap_2", "C84_scale_1", "C84_scale_2", "C84_add_1", "C84_add_2", "C84_dot", "C84_vector_idx_abs_max", "C84_apply_givens_rotation", "C84_apply_givens_rotation_c", "C84_matrix_vector_product", "C84_matrix_vector_product_upd", "C84_symmetric_matrix_vector_product", "C84_symmetric_matrix_vector_product_upd", "C84_hermitian_matrix_vector_product", "C84_hermitian_matrix_vector_product_upd", "C84_triangular_matrix_vector_product", "C84_triangular_matrix_vector_product_upd", "C84_triangular_matrix_vector_product_inplace", "C84_trsv_upper", "C84_trsv_lower", "C84_matrix_rank_1_update", "C84_symmetric_matrix_rank_1_update_alpha", "C84_symmetric_matrix_rank_1_update", "C84_hermitian_matrix_rank_1_update_alpha", "C84_hermitian_matrix_rank_1_update", "C84_symmetric_matrix_rank_2_update", "C84_hermitian_matrix_rank_2_update", "C84_matrix_product", "C84_matrix_product_upd", "C84_triangular_matrix_product_left", "C84_triangular_matrix_product_right", "C84_triangular_matrix_left_product", "C84_triangular_matrix_right_product", "C84_symmetric_matrix_product_left", "C84_symmetric_matrix_product_right", "C84_hermitian_matrix_product_left", "C84_hermitian_matrix_product_right", "C84_symmetric_matrix_rank_k_update_alpha", "C84_symmetric_matrix_rank_k_update", "C84_hermitian_matrix_rank_k_update_alpha", "C84_hermitian_matrix_rank_k_update", "C84_symmetric_matrix_rank_2k_update", "C84_hermitian_matrix_rank_2k_update", "C84_trsm_upper_left", "C84_trsm_lower_left", "C84_trsm_upper_right", "C84_trsm_lower_right", "C84_vector_abs_sum", "C84_vector_sum_of_squares", "C84_matrix_frob_norm", "C84_matrix_inf_norm", "C84_matrix_one_norm", "C84_transfer"], "note": "The descending loops of the triangular solves and the bounds k_lower/k_upper of the out-of-place triangular products were already modelled with their types (C28, C43) and are kept as they are; these theorems cover the remaining counters. The arithmetic of the layout mappings in the index type is the subject of C92."},
  {"property": "C85", "status": "proved", "theorems": ["C85_concurrent", "C85_copy_1", "C85_copy_2", "C85_swap_1", "C85_swap_2", "C85_scale_1", "C85_scale_2", "C85_add_1", "C85_add_2", "C85_dot", "C85_vector_idx_abs_max", "C85_apply_givens_rotation", "C85_apply_givens_rotation_c", "C85_matrix_vector_product", "C85_matrix_vector_product_upd", "C85_symmetric_matrix_vector_product", "C85_symmetric_matrix_vector_product_upd", "C85_hermitian_matrix_vector_product", "C85_hermitian_matrix_vector_product_upd", "C85_triangular_matrix_vector_product", "C85_triangular_matrix_vector_product_upd", "C85_triangular_matrix_vector_product_inplace", "C85_triangular_matrix_vector_solve", "C85_matrix_rank_1_update", "C85_symmetric_matrix_rank_1_update_alpha", "C85_symmetric_matrix_rank_1_update", "C85_symmetric_matrix_rank_2_update", "C85_hermitian_matrix_rank_1_update_alpha", "C85_hermitian_matrix_rank_1_update", "C85_hermitian_matrix_rank_2_update", "C85_matrix_product", "C85_matrix_product_upd", "C85_triangular_matrix_product_left", "C85_triangular_matrix_product_right", "C85_triangular_matrix_left_product", "C85_triangular_matrix_right_product", "C85_symmetric_matrix_product_left", "C85_symmetric_matrix_product_right", "C85_hermitian_matrix_product_left", "C85_hermitian_matrix_product_right", "C85_symmetric_matrix_rank_k_update_alpha", "C85_symmetric_matrix_rank_k_update", "C85_symmetric_matrix_rank_2k_update", "C85_hermitian_matrix_rank_k_update_alpha", "C85_hermitian_matrix_rank_k_update", "C85_hermitian_matrix_rank_2k_update", "C85_triangular_matrix_matrix_left_solve", "C85_triangular_matrix_matrix_right_solve", "C85_vector_abs_sum", "C85_vector_sum_of_squares", "C85_matrix_frob_norm", "C85_matrix_inf_norm", "C85_matrix_one_norm"], "note": "Loads and stores of whole elements are taken as the unit of interleaving and sequentially consistent, which C++ guarantees for programs without data races. The solves and the out-of-place triangular products need extents within the index type (`fits`, see C28 and C43). The Kokkos back end is not covered."},
  {"property": "C86", "status": "proved", "theorems": ["C86_homomorphism", "C86_closed_subset", "C86_views", "C86_copy_1", "C86_copy_2", "C86_swap_1", "C86_swap_2", "C86_scale_1", "C86_scale_2", "C86_add_1", "C86_add_2", "C86_dot", "C86_dotc", "C86_dot_noinit", "C86_dotc_noinit", "C86_apply_givens_rotation", "C86_apply_givens_rotation_c", "C86_matrix_vector_product", "C86_matrix_vector_product_upd", "C86_symmetric_matrix_vector_product", "C86_symmetric_matrix_vector_product_upd", "C86_hermitian_matrix_vector_product", "C86_hermitian_matrix_vector_product_upd", "C86_triangular_matrix_vector_product", "C86_triangular_matrix_vector_product_upd", "C86_triangular_matrix_vector_product_inplace", "C86_triangular_matrix_vector_solve_with", "C86_triangular_matrix_vector_solve", "C86_matrix_rank_1_update", "C86_matrix_rank_1_update_c", "C86_symmetric_matrix_rank_1_update_alpha", "C86_symmetric_matrix_rank_1_update", "C86_hermitian_matrix_rank_1_update_alpha", "C86_hermitian_matrix_rank_1_update", "C86_symmetric_matrix_rank_2_update", "C86_hermitian_matrix_rank_2_update", "C86_matrix_product", "C86_matrix_product_upd", "C86_triangular_matrix_product_left", "C86_triangular_matrix_product_right", "C86_triangular_matrix_left_product", "C86_triangular_matrix_right_product", "C86_symmetric_matrix_product_left", "C86_symmetric_matrix_product_right", "C86_hermitian_matrix_product_left", "C86_hermitian_matrix_product_right", "C86_symmetric_matrix_rank_k_update_alpha", "C86_symmetric_matrix_rank_k_update", "C86_hermitian_matrix_rank_k_update_alpha", "C86_hermitian_matrix_rank_k_update", "C86_symmetric_matrix_rank_2k_update", "C86_hermitian_matrix_rank_2k_update", "C86_triangular_matrix_matrix_left_solve", "C86_triangular_matrix_matrix_right_solve", "C86_triangular_matrix_matrix_solve", "C86_vector_idx_abs_max", "C86_vector_abs_sum", "C86_vector_abs_sum_noinit", "C86_vector_sum_of_squares", "C86_vector_two_norm", "C86_vector_two_norm_noinit", "C86_matrix_frob_norm", "C86_matrix_frob_norm_noinit", "C86_matrix_inf_norm", "C86_matrix_inf_norm_noinit", "C86_matrix_one_norm", "C86_matrix_one_norm_noinit", "C86_kk_matrix_rank_1_update", "C86_kk_matrix_rank_1_update_conj", "C86_kk_symmetric_matrix_rank_1_update", "C86_kk_hermitian_matrix_rank_1_update", "C86_kk_symmetric_matrix_rank_2_update", "C86_kk_hermitian_matrix_rank_2_update", "C86_kk_symmetric_matrix_rank_k_update", "C86_kk_hermitian_matrix_rank_k_update", "C86_kk_symmetric_matrix_rank_2k_update", "C86_kk_hermitian_matrix_rank_2k_update", "C86_kk_matrix_vector_product_upd", "C86_kk_triangular_matrix_vector_product", "C86_kk_triangular_matrix_vector_product_upd", "C86_kk_symmetric_matrix_right_product_upd", "C86_kk_hermitian_matrix_right_product_upd", "C86_kk_triangular_matrix_left_product_unit", "C86_kk_triangular_matrix_right_product_unit", "C86_kk_triangular_matrix_left_product_inplace_unit", "C86_kk_triangular_matrix_right_product_inplace_unit", "C86_kk_copy_2", "C86_kk_swap_1", "C86_kk_swap_2", "C86_kk_symmetric_matrix_vector_product", "C86_kk_symmetric_matrix_vector_product_upd", "C86_kk_hermitian_matrix_vector_product", "C86_kk_hermitian_matrix_vector_product_upd", "C86_kk_symmetric_matrix_left_product", "C86_kk_symmetric_matrix_left_product_upd", "C86_kk_symmetric_matrix_right_product", "C86_kk_hermitian_matrix_left_product", "C86_kk_hermitian_matrix_left_product_upd", "C86_kk_hermitian_matrix_right_product", "C86_kk_dot", "C86_kk_vector_abs_sum", "C86_kk_vector_norm2", "C86_kk_vector_sum_of_squares", "C86_kk_matrix_frob_norm", "C86_kk_matrix_inf_norm", "C86_kk_matrix_one_norm", "C86_setup_givens_rotation", "C86_setup_givens_rotation_complex"], "note": "For the inline algorithms, the set-up of rotations, and the Kokkos algorithms that run their own parallel_for or parallel_reduce (not the calls into KokkosBlas). One element type per call."},
  {"property": "C87", "status": "proved", "theorems": ["C87_trmv", "C87_trmm_left", "C87_trmm_right", "C87_trmv_float", "C87_trmm_left_float", "C87_trmm_right_float"], "note": "C87_order_matters: an example in binary64 where in-place and out-of-place products differ."},
  {"property": "C88", "status": "proved", "theorems": ["C88_nan", "C88_scale", "C88_scale_2", "C88_add", "C88_add_2", "C88_dot", "C88_dotc", "C88_givens", "C88_gemv", "C88_gemv_upd", "C88_symv", "C88_symv_upd", "C88_hemv", "C88_hemv_upd", "C88_trmv", "C88_trmv_upd", "C88_trmv_inplace", "C88_ger", "C88_gerc", "C88_syr", "C88_syr_alpha", "C88_syr2", "C88_her", "C88_her_alpha", "C88_her2", "C88_gemm", "C88_gemm_upd", "C88_symm_left", "C88_symm_right", "C88_hemm_left", "C88_hemm_right", "C88_trmm_left", "C88_trmm_right", "C88_trmm_left_inplace", "C88_trmm_right_inplace", "C88_syrk", "C88_herk", "C88_syr2k", "C88_her2k", "C88_trsv", "C88_trsm_left", "C88_trsm_right"], "note": "Inline algorithms. For complex IEEE numbers NaN is not absorbing: the C library may recover an infinity from a product of NaN parts. Norms and sums are C63."},
  {"property": "C89", "status": "partial", "theorems": ["C89_mapping", "C89_transposed", "C89_symv", "C89_symv_upd", "C89_hemv", "C89_hemv_upd", "C89_trmv", "C89_trmv_upd", "C89_trmv_inplace", "C89_trsv", "C89_trsm_left", "C89_trsm_right", "C89_symm_left", "C89_symm_right", "C89_hemm_left", "C89_trmm_left", "C89_trmm_right", "C89_syr", "C89_syr_alpha", "C89_her", "C89_her_alpha", "C89_syr2", "C89_her2", "C89_syrk", "C89_syrk_alpha", "C89_herk", "C89_herk_alpha", "C89_syr2k", "C89_her2k", "C89_other_symv", "C89_other_hemv", "C89_kokkos_refuted"], "note": "Everything claimed of the inline algorithms is proved; the Kokkos overloads do not compile for packed matrices (C89_kokkos_refuted). The mapping is that of the C++ working draft: the repository declares the class only."},
  {"property": "C90", "status": "proved", "theorems": ["C90_helpers", "C90_dotc", "C90_dotc_adl", "C90_gerc", "C90_givens", "C90_hemv", "C90_hemv_upd", "C90_hemm_left", "C90_hemm_right", "C90_her", "C90_her_alpha", "C90_her2", "C90_herk", "C90_herk_alpha", "C90_her2k", "C90_abs_sum"], "note": ""},
  {"property": "C91", "status": "proved", "theorems": ["C91_plain", "C91_pick", "C91_dot_pick", "C91_dot", "C91_dot_noinit", "C91_gemv", "C91_gemv_upd", "C91_gemm", "C91_gemm_upd", "C91_symv", "C91_symv_upd", "C91_symm_left", "C91_symm_right", "C91_trmv", "C91_trmv_upd", "C91_trmm_left", "C91_trmm_right", "C91_ger", "C91_syr", "C91_syr_alpha", "C91_syr2", "C91_syrk", "C91_syrk_alpha", "C91_syr2k"], "note": ""},
  {"property": "C92", "status": "proved", "theorems": ["C92_offset", "C92_address_m", "C92_address_v", "C92_transposed", "C92_copy_1", "C92_copy_2", "C92_swap_1", "C92_swap_2", "C92_scale_1", "C92_scale_2", "C92_add_1", "C92_add_2", "C92_dot", "C92_vector_idx_abs_max", "C92_apply_givens_rotation", "C92_apply_givens_rotation_c", "C92_matrix_vector_product", "C92_matrix_vector_product_upd", "C92_symmetric_matrix_vector_product", "C92_symmetric_matrix_vector_product_upd", "C92_hermitian_matrix_vector_product", "C92_hermitian_matrix_vector_product_upd", "C92_triangular_matrix_vector_product", "C92_triangular_matrix_vector_product_upd", "C92_triangular_matrix_vector_product_inplace", "C92_trsv_upper", "C92_trsv_lower", "C92_matrix_rank_1_update", "C92_symmetric_matrix_rank_1_update_alpha", "C92_symmetric_matrix_rank_1_update", "C92_hermitian_matrix_rank_1_update_alpha", "C92_hermitian_matrix_rank_1_update", "C92_symmetric_matrix_rank_2_update", "C92_hermitian_matrix_rank_2_update", "C92_matrix_product", "C92_matrix_product_upd", "C92_triangular_matrix_product_left", "C92_triangular_matrix_product_right", "C92_triangular_matrix_left_product", "C92_triangular_matrix_right_product", "C92_symmetric_matrix_product_left", "C92_symmetric_matrix_product_right", "C92_hermitian_matrix_product_left", "C92_hermitian_matrix_product_right", "C92_symmetric_matrix_rank_k_update_alpha", "C92_symmetric_matrix_rank_k_update", "C92_hermitian_matrix_rank_k_update_alpha", "C92_hermitian_matrix_rank_k_update", "C92_symmetric_matrix_rank_2k_update", "C92_hermitian_matrix_rank_2k_update", "C92_trsm_upper_left", "C92_trsm_lower_left", "C92_trsm_upper_right", "C92_trsm_lower_right", "C92_vector_abs_sum", "C92_vector_sum_of_squares", "C92_matrix_frob_norm", "C92_matrix_inf_norm", "C92_matrix_one_norm"], "note": ""},
  {"property": "C93", "status": "proved", "theorems": ["C93_dot_swap", "C93_ieee_commutes", "C93_gemv_rows", "C93_gemv_updating_rows", "C93_gemv_copy", "C93_symv_hemv_copy", "C93_trmv_copy", "C93_gemm_copy", "C93_gemm_columns", "C93_symm_hemm_columns", "C93_trmm_columns", "C93_gemm_outer", "C93_syrk_outer", "C93_syrk_alpha_outer", "C93_syr2k_outer", "C93_symv_gemv", "C93_hemv_gemv", "C93_updating_gemv", "C93_symm_hemm_gemm", "C93_symm_hemm_right_gemm", "C93_syrk_gemm", "C93_gemm_transposed", "C93_symm_transposed", "C93_trsm_transposed", "C93_trsm_rows", "C93_norms_transposed", "C93_inf_norm_rows", "C93_one_norm_columns"], "note": ""},
  {"property": "C94", "status": "proved", "theorems": ["C94_real", "C94_complex", "C94_forget", "C94_forget_complex", "C94_dot", "C94_matrix_vector_product_upd", "C94_matrix_product_upd", "C94_triangular_matrix_vector_solve", "C94_triangular_matrix_matrix_left_solve", "C94_triangular_matrix_matrix_right_solve", "C94_triangular_matrix_vector_product_inplace", "C94_apply_givens_rotation", "C94_symmetric_matrix_rank_2k_update", "C94_vector_two_norm", "C94_vector_sum_of_squares", "C94_matrix_frob_norm", "C94_matrix_inf_norm", "C94_kk_matrix_vector_product_upd", "C94_kk_dot", "C94_kk_vector_norm2", "C94_complex_dotc", "C94_complex_hermitian_matrix_rank_k_update_alpha", "C94_complex_hermitian_matrix_vector_product_upd", "C94_complex_matrix_product_upd", "C94_setup_givens_rotation", "C94_setup_givens_rotation_complex"], "note": "Stated for a selection of algorithms; by C94_real, C94_complex and C86 it holds for all of them. The choice of NaN bits is a function of the operands of each operation."},
  {"property": "C95", "status": "proved", "theorems": ["C95_abs_sum", "C95_abs_sum_complex", "C95_inf_norm", "C95_one_norm", "C95_two_norm", "C95_dot_self", "C95_abs_sum_monotone", "C95_inf_norm_monotone", "C95_one_norm_monotone", "C95_two_norm_monotone_refuted", "C95_abs_sum_scaling", "C95_inf_norm_scaling", "C95_one_norm_scaling", "C95_two_norm_scaling", "C95_abs_sum_signs", "C95_sum_of_squares_signs", "C95_two_norm_signs", "C95_frob_norm_signs", "C95_inf_norm_signs", "C95_one_norm_signs"], "note": "Monotonicity is refuted for vector_two_norm (in double the norm of (3, 2) exceeds that of (3 + 2^-51, 2)); as the statement says. Not claimed for matrix_frob_norm, whose scaled sum is wrong (C15)."},
  {"property": "C96", "status": "proved", "theorems": ["C96_copy_1", "C96_copy_2", "C96_swap_1", "C96_swap_2", "C96_scale_1", "C96_scale_2", "C96_add_1", "C96_add_2", "C96_dot", "C96_dotc", "C96_dot_noinit", "C96_dotc_noinit", "C96_apply_givens_rotation", "C96_apply_givens_rotation_c", "C96_matrix_vector_product", "C96_matrix_vector_product_upd", "C96_symmetric_matrix_vector_product", "C96_symmetric_matrix_vector_product_upd", "C96_hermitian_matrix_vector_product", "C96_hermitian_matrix_vector_product_upd", "C96_triangular_matrix_vector_product", "C96_triangular_matrix_vector_product_upd", "C96_triangular_matrix_vector_product_inplace", "C96_triangular_matrix_vector_solve_with", "C96_triangular_matrix_vector_solve", "C96_matrix_rank_1_update", "C96_matrix_rank_1_update_c", "C96_symmetric_matrix_rank_1_update_alpha", "C96_symmetric_matrix_rank_1_update", "C96_hermitian_matrix_rank_1_update_alpha", "C96_hermitian_matrix_rank_1_update", "C96_symmetric_matrix_rank_2_update", "C96_hermitian_matrix_rank_2_update", "C96_matrix_product", "C96_matrix_product_upd", "C96_triangular_matrix_product_left", "C96_triangular_matrix_product_right", "C96_triangular_matrix_left_product", "C96_triangular_matrix_right_product", "C96_symmetric_matrix_product_left", "C96_symmetric_matrix_product_right", "C96_hermitian_matrix_product_left", "C96_hermitian_matrix_product_right", "C96_symmetric_matrix_rank_k_update_alpha", "C96_symmetric_matrix_rank_k_update", "C96_hermitian_matrix_rank_k_update_alpha", "C96_hermitian_matrix_rank_k_update", "C96_symmetric_matrix_rank_2k_update", "C96_hermitian_matrix_rank_2k_update", "C96_triangular_matrix_matrix_left_solve", "C96_triangular_matrix_matrix_right_solve", "C96_triangular_matrix_matrix_solve", "C96_vector_abs_sum", "C96_vector_abs_sum_noinit", "C96_matrix_frob_norm", "C96_matrix_frob_norm_noinit", "C96_matrix_inf_norm", "C96_matrix_inf_norm_noinit", "C96_matrix_one_norm", "C96_matrix_one_norm_noinit", "C96_kk_matrix_rank_1_update", "C96_kk_matrix_rank_1_update_conj", "C96_kk_symmetric_matrix_rank_1_update", "C96_kk_hermitian_matrix_rank_1_update", "C96_kk_symmetric_matrix_rank_2_update", "C96_kk_hermitian_matrix_rank_2_update", "C96_kk_symmetric_matrix_rank_k_update", "C96_kk_hermitian_matrix_rank_k_update", "C96_kk_symmetric_matrix_rank_2k_update", "C96_kk_hermitian_matrix_rank_2k_update", "C96_kk_matrix_vector_product_upd", "C96_kk_triangular_matrix_vector_product", "C96_kk_triangular_matrix_vector_product_upd", "C96_kk_symmetric_matrix_right_product_upd", "C96_kk_hermitian_matrix_right_product_upd", "C96_kk_triangular_matrix_left_product_unit", "C96_kk_triangular_matrix_right_product_unit", "C96_kk_triangular_matrix_left_product_inplace_unit", "C96_kk_triangular_matrix_right_product_inplace_unit", "C96_kk_copy_2", "C96_kk_swap_1", "C96_kk_swap_2", "C96_kk_symmetric_matrix_vector_product", "C96_kk_symmetric_matrix_vector_product_upd", "C96_kk_hermitian_matrix_vector_product", "C96_kk_hermitian_matrix_vector_product_upd", "C96_kk_symmetric_matrix_left_product", "C96_kk_symmetric_matrix_left_product_upd", "C96_kk_symmetric_matrix_right_product", "C96_kk_hermitian_matrix_left_product", "C96_kk_hermitian_matrix_left_product_upd", "C96_kk_hermitian_matrix_right_product", "C96_kk_dot", "C96_kk_vector_abs_sum", "C96_kk_vector_norm2", "C96_kk_vector_sum_of_squares", "C96_kk_matrix_frob_norm", "C96_kk_matrix_inf_norm", "C96_kk_matrix_one_norm", "C96_vector_sum_of_squares", "C96_vector_two_norm", "C96_idx_abs_max_arithmetic", "C96_idx_abs_max_complex", "C96_idx_abs_max_same"], "note": "Accesses of the model: one load or store per element access in the source; a compiler may keep elements in registers. The model of vector_idx_abs_max used here (Acc.v) performs every load of the source and is proved to behave as the one used elsewhere, which merges repeated loads of one element."},
  {"property": "C97", "status": "proved", "theorems": ["C97_copy_1", "C97_copy_2", "C97_swap_1", "C97_swap_2", "C97_scale_1", "C97_scale_2", "C97_add_1", "C97_add_2", "C97_dot", "C97_apply_givens_rotation", "C97_apply_givens_rotation_c", "C97_matrix_vector_product", "C97_matrix_vector_product_upd", "C97_symmetric_matrix_vector_product", "C97_symmetric_matrix_vector_product_upd", "C97_hermitian_matrix_vector_product", "C97_hermitian_matrix_vector_product_upd", "C97_triangular_matrix_vector_product", "C97_triangular_matrix_vector_product_upd", "C97_triangular_matrix_vector_product_inplace", "C97_triangular_matrix_vector_solve_with", "C97_matrix_rank_1_update", "C97_symmetric_matrix_rank_1_update_alpha", "C97_symmetric_matrix_rank_1_update", "C97_symmetric_matrix_rank_2_update", "C97_hermitian_matrix_rank_1_update_alpha", "C97_hermitian_matrix_rank_1_update", "C97_hermitian_matrix_rank_2_update", "C97_matrix_product", "C97_matrix_product_upd", "C97_triangular_matrix_product_left", "C97_triangular_matrix_product_right", "C97_triangular_matrix_left_product", "C97_triangular_matrix_right_product", "C97_symmetric_matrix_product_left", "C97_symmetric_matrix_product_right", "C97_hermitian_matrix_product_left", "C97_hermitian_matrix_product_right", "C97_symmetric_matrix_rank_k_update_alpha", "C97_symmetric_matrix_rank_k_update", "C97_symmetric_matrix_rank_2k_update", "C97_hermitian_matrix_rank_k_update_alpha", "C97_hermitian_matrix_rank_k_update", "C97_hermitian_matrix_rank_2k_update", "C97_triangular_matrix_matrix_left_solve", "C97_triangular_matrix_matrix_right_solve", "C97_vector_abs_sum", "C97_matrix_frob_norm", "C97_matrix_inf_norm", "C97_matrix_one_norm", "C97_vector_sum_of_squares", "C97_vector_two_norm", "C97_idx_abs_max_arithmetic", "C97_idx_abs_max_complex"], "note": "Counts are of the accesses through the views in the source, as for C96. Inline back end only."},
  {"property": "C98", "status": "proved", "theorems": ["C98_copy_1", "C98_swap_1", "C98_scale_1", "C98_add_1", "C98_givens", "C98_givens_c", "C98_dot", "C98_copy_2_columns", "C98_swap_2_columns", "C98_scale_2_columns", "C98_add_2_columns", "C98_gemv_rows", "C98_gemv_upd_rows", "C98_ger_rows", "C98_gemm_rows", "C98_gemm_upd_rows", "C98_trmm_left_columns", "C98_trmm_in_place_columns", "C98_symm_left_columns", "C98_hemm_left_columns", "C98_trsm_left_columns", "C98_trsm_right_rows", "C98_abs_sum", "C98_sum_of_squares", "C98_gemv_columns", "C98_gemv_upd_columns", "C98_gemm_inner", "C98_gemm_upd_inner", "C98_syrk_columns", "C98_syrk_alpha_columns", "C98_syr2k_columns", "C98_gemm_columns", "C98_trsv_lower", "C98_trsm_left_lower", "C98_ieee_negates", "C98_ring_negates"], "note": "The parts are views with offsets into the whole, as submdspan creates them (submdspan itself belongs to mdspan and is not modelled). The claim for triangular systems is for the lower triangle: for the upper triangle C98_upper_differs shows a system whose solution changes, because the library subtracts the terms of a row from left to right. Cuts of in-place right products, and of triangular products by rows, are not claimed."},
  {"property": "C99", "status": "proved", "theorems": ["C99_trsv", "C99_trsm_left", "C99_trsm_right", "C99_within_C91", "C99_dot_all_fused", "C99_dot_none_fused"], "note": "The choice is a function of the histories of the operands, so it can differ from place to place. A scaled right-hand side (whose elements are products read through the view) is not covered."},
  {"property": "C100", "status": "proved", "theorems": ["C100_conjugated_vector", "C100_conjugated_matrix", "C100_conjugate_transposed", "C100_dotc", "C100_gemv", "C100_gemv_updating", "C100_gemm", "C100_gemm_updating", "C100_gerc", "C100_hemv", "C100_hemv_updating", "C100_hemm_left", "C100_hemm_right", "C100_her_alpha", "C100_her", "C100_her2", "C100_herk_alpha", "C100_herk", "C100_her2k", "C100_trmv", "C100_trmv_inplace", "C100_trmm_left_inplace", "C100_trmm_right_inplace", "C100_trsv", "C100_trsm_left", "C100_trsm_right", "C100_cholesky_solve", "C100_herk_hemv", "C100_dotc_square"], "note": "The matrix that an Hermitian update is given is assumed Hermitian, so its diagonal is real; what happens to a diagonal with imaginary parts is C31. Index types as in C75."},
  {"property": "C101", "status": "proved", "theorems": ["C101_traced", "C101_dotc_traced", "C101_dot", "C101_dotc", "C101_gemv", "C101_gemv_upd", "C101_gemm", "C101_gemm_upd", "C101_hemv", "C101_hemv_upd", "C101_symv", "C101_hemm_left", "C101_ger", "C101_gerc", "C101_her", "C101_her2", "C101_herk", "C101_her2k", "C101_symv_upd", "C101_symm_left", "C101_symm_right", "C101_hemm_right", "C101_syr", "C101_syr2", "C101_syrk", "C101_syr2k", "C101_trmv", "C101_trmv_upd", "C101_trmm_left", "C101_trmm_right", "C101_real_factor"], "note": "Stored numbers as inputs; in-place triangular products, solves and updates with alpha are not included. Right products with a Hermitian matrix read its diagonal whole (C37), as in C71."},
  {"property": "C102", "status": "proved", "theorems": ["C102_dominated", "C102_nonneg", "C102_scale", "C102_scale_2", "C102_add", "C102_add_2", "C102_dot", "C102_dotc", "C102_gemv", "C102_gemv_upd", "C102_symv", "C102_symv_upd", "C102_hemv", "C102_hemv_upd", "C102_trmv", "C102_trmv_upd", "C102_trmv_inplace", "C102_ger", "C102_gerc", "C102_syr", "C102_syr_alpha", "C102_syr2", "C102_her", "C102_her_alpha", "C102_her2", "C102_gemm", "C102_gemm_upd", "C102_symm_left", "C102_symm_right", "C102_hemm_left", "C102_hemm_right", "C102_trmm_left", "C102_trmm_right", "C102_trmm_left_inplace", "C102_trmm_right_inplace", "C102_syrk", "C102_herk", "C102_syr2k", "C102_her2k"], "note": "Solves and rotations subtract, and are not monotone. No multiply-adds fused."},
  {"property": "C103", "status": "proved", "theorems": ["C103_signs", "C103_signs_div", "C103_signs_square", "C103_shifts", "C103_shifts_div", "C103_scale", "C103_scale_2", "C103_add", "C103_add_2", "C103_dot", "C103_dotc", "C103_gemv", "C103_gemv_upd", "C103_symv", "C103_symv_upd", "C103_hemv", "C103_hemv_upd", "C103_trmv", "C103_trmv_upd", "C103_trmv_inplace", "C103_ger", "C103_gerc", "C103_syr", "C103_syr2", "C103_her", "C103_her2", "C103_gemm", "C103_gemm_upd", "C103_symm_left", "C103_symm_right", "C103_hemm_left", "C103_hemm_right", "C103_trmm_left", "C103_trmm_right", "C103_trmm_left_inplace", "C103_trmm_right_inplace", "C103_syrk", "C103_herk", "C103_syr2k", "C103_her2k", "C103_trsv", "C103_trsm_left", "C103_trsm_right", "C103_unit"], "note": "No multiply-adds fused. Powers of two are covered as long as no exponent leaves the range (exponents in the arithmetic modelled for them have no limits). Updates with a factor alpha and rotations are not covered."},
  {"property": "C104", "status": "proved", "theorems": ["C104_scale", "C104_scale_2", "C104_add", "C104_add_2", "C104_gemv", "C104_gemv_upd", "C104_symv", "C104_symv_upd", "C104_hemv", "C104_hemv_upd", "C104_trmv", "C104_trmv_upd", "C104_trmv_inplace", "C104_ger", "C104_gerc", "C104_syr", "C104_syr2", "C104_her", "C104_her2", "C104_gemm", "C104_gemm_upd", "C104_symm_left", "C104_symm_right", "C104_hemm_left", "C104_hemm_right", "C104_trmm_left", "C104_trmm_right", "C104_trmm_left_inplace", "C104_trmm_right_inplace", "C104_syrk", "C104_herk", "C104_syr2k", "C104_her2k", "C104_trsv", "C104_trsm_left", "C104_trsm_right"], "note": "Inline (sequential) implementations. Updates with a factor alpha and rotations are not covered."},
  {"property": "C105", "status": "proved", "theorems": ["C105_converted", "C105_sum", "C105_product", "C105_scale", "C105_scale_2", "C105_add", "C105_add_2", "C105_dot", "C105_dotc", "C105_gemv", "C105_gemv_upd", "C105_symv", "C105_symv_upd", "C105_hemv", "C105_hemv_upd", "C105_trmv", "C105_trmv_upd", "C105_trmv_inplace", "C105_ger", "C105_gerc", "C105_syr", "C105_syr2", "C105_her", "C105_her2", "C105_gemm", "C105_gemm_upd", "C105_symm_left", "C105_symm_right", "C105_hemm_left", "C105_hemm_right", "C105_trmm_left", "C105_trmm_right", "C105_trmm_left_inplace", "C105_trmm_right_inplace", "C105_syrk", "C105_herk", "C105_syr2k", "C105_her2k"], "note": "Real formats, every operation rounded to nearest, no multiply-adds fused (fused ones: C106). Updates with a factor alpha and rotations are not covered; triangular solves are in C107."},
  {"property": "C106", "status": "proved", "theorems": ["C106_input", "C106_plain", "C106_traced", "C106_fma", "C106_scale", "C106_scale_2", "C106_add", "C106_add_2", "C106_dot", "C106_dotc", "C106_gemv", "C106_gemv_upd", "C106_symv", "C106_symv_upd", "C106_hemv", "C106_hemv_upd", "C106_trmv", "C106_trmv_upd", "C106_trmv_inplace", "C106_ger", "C106_gerc", "C106_syr", "C106_syr2", "C106_her", "C106_her2", "C106_gemm", "C106_gemm_upd", "C106_symm_left", "C106_symm_right", "C106_hemm_left", "C106_hemm_right", "C106_trmm_left", "C106_trmm_right", "C106_trmm_left_inplace", "C106_trmm_right_inplace", "C106_syrk", "C106_herk", "C106_syr2k", "C106_her2k"], "note": "Real formats, rounding to nearest. Updates with a factor alpha and rotations are not covered; triangular solves are in C107."},
  {"property": "C107", "status": "proved", "theorems": ["C107_trsv", "C107_trsm_left", "C107_trsm_right", "C107_trsv_fused", "C107_trsm_left_fused", "C107_trsm_right_fused"], "note": "Real formats, rounding to nearest; with and without contraction."},
  {"property": "C108", "status": "proved", "theorems": ["C108_scale", "C108_scale_2", "C108_add", "C108_add_2", "C108_dot", "C108_dotc", "C108_gemv", "C108_gemv_upd", "C108_symv", "C108_symv_upd", "C108_hemv", "C108_hemv_upd", "C108_ger", "C108_gerc", "C108_syr", "C108_syr2", "C108_her", "C108_her2", "C108_gemm", "C108_gemm_upd", "C108_symm_left", "C108_symm_right", "C108_hemm_left", "C108_syrk", "C108_herk", "C108_syr2k", "C108_her2k"], "note": "Every operation rounded to nearest, no multiply-adds fused. Triangular operations, hermitian_matrix_product from the right and updates with a factor alpha are not covered."},
  {"property": "C109", "status": "proved", "theorems": ["C109_abs_sum", "C109_abs_sum_complex", "C109_inf_norm", "C109_one_norm"], "note": "Inline versions without a parallel reduction. Frobenius and 2-norms take square roots and are not covered."}
]}

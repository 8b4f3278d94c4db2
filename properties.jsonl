{"id": "C01", "title": "scaled() is a lazy read-only view", "statement": "For every vector or matrix x and every scaling factor alpha, element i of scaled(alpha, x) reads as alpha * x(i) (factor on the left) evaluated against the storage of x at the time of the read: a later write to x is visible through the view. Creating or reading the view changes no memory, and it has the extents and the element addresses of x. Views nest: scaled(a, scaled(b, x)) reads a * (b * x(i)).", "quantifier": "all element types with a multiplication (no algebraic law assumed), all layouts, extents, nested accessors, memories and interleaved writes", "why_tests_cant": "tests check a few values of alpha and a few lengths right after construction; they cannot cover every nesting of views, layout and later write", "anchors": ["include/experimental/__p1673_bits/scaled.hpp: accessor_scaled, scaled"]}
{"id": "C02", "title": "conjugated() reads conjugates and is self-annihilating", "statement": "Element i of conjugated(x) reads conj(x(i)) (the value itself for element types without conj), with unchanged extents and addresses. conjugated(conjugated(x)) is x itself: same addresses, same values, and again writable, for every accessor x may carry.", "quantifier": "all views (rank 1 and 2), nested accessors, element types and memories", "why_tests_cant": "needs all accessor nestings and all memory contents; tests use complex<double> vectors with the default accessor", "anchors": ["include/experimental/__p1673_bits/conjugated.hpp: conjugated_accessor, conjugated", "include/experimental/__p1673_bits/conj_if_needed.hpp: conj_if_needed"]}
{"id": "C03", "title": "transposed() swaps the indices for every layout", "statement": "For every matrix view A and all in-range i, j, transposed(A)(j,i) is the same memory cell as A(i,j), with extents swapped, whichever layout-specific rewriting is used (left, right, strided, left-padded, right-padded, generic); no data is moved. Transposing twice gives back a view whose (i,j) is the cell of A(i,j).", "quantifier": "all layouts, extents, strides, paddings and all in-range index pairs", "why_tests_cant": "layout arithmetic must hold at every index for every combination of extents and strides", "anchors": ["include/experimental/__p1673_bits/transposed.hpp: transposed, layout_transpose, transpose_extents, impl::transposed_layout"]}
{"id": "C04", "title": "conjugate_transposed() is the conjugate transpose", "statement": "conjugate_transposed(A)(j,i) reads conj(A(i,j)) for all in-range i, j and every layout/accessor, and conjugate_transposed(conjugate_transposed(A)) reads A's own elements.", "quantifier": "all matrices, layouts, accessors and memories", "why_tests_cant": "as C02 and C03 combined; composition over all nestings", "anchors": ["include/experimental/__p1673_bits/conjugate_transposed.hpp: conjugate_transposed"]}
{"id": "C05", "title": "Transposed layout mappings are valid mappings of the same span", "statement": "The mapping of transposed(A) is a valid mdspan mapping whenever A's is: every in-range index pair maps below required_span_size, the required span size is that of A's mapping, distinct index pairs map to distinct offsets whenever they do so for A, and stride(r) of the transposed mapping is the stride of the other dimension of A (so offset(i,j) = i*stride(0)+j*stride(1) for strided layouts).", "quantifier": "all extents (including 0), strides and paddings, all index pairs", "why_tests_cant": "arithmetic facts over unbounded extents and strides", "anchors": ["include/experimental/__p1673_bits/transposed.hpp: layout_transpose::mapping (operator(), required_span_size, stride, is_unique)"]}
{"id": "C06", "title": "copy() copies every element and nothing else", "statement": "After copy(x, y), y holds exactly the values read through x before the call (also when x is a scaled/conjugated/transposed view), no memory outside y changes, and no access is out of range when the extents agree. x and y must not partially overlap; x and y being the same view is harmless.", "quantifier": "all extents including 0, layouts, accessors, memories; rank 1 and rank 2", "why_tests_cant": "frame condition quantifies over all memory cells; all layouts and sizes", "anchors": ["include/experimental/__p1673_bits/blas1_linalg_copy.hpp: copy (copy_rank_1, copy_rank_2)"]}
{"id": "C07", "title": "swap_elements() exchanges the two objects", "statement": "After swap_elements(x, y), x holds the old y and y the old x, no other memory changes, and applying it twice restores the original memory exactly.", "quantifier": "all extents, layouts, memories, rank 1 and 2, non-overlapping x and y", "why_tests_cant": "whole-memory equality for all sizes and layouts", "anchors": ["include/experimental/__p1673_bits/blas1_linalg_swap.hpp: swap_elements"]}
{"id": "C08", "title": "scale() multiplies in place", "statement": "After scale(alpha, x), every element of x is its old value times alpha, and nothing else in memory changes; each element is scaled exactly once whatever the layout.", "quantifier": "all extents, unique layouts, scalars, memories; rank 1 and 2", "why_tests_cant": "all sizes/layouts and a frame over all memory", "anchors": ["include/experimental/__p1673_bits/blas1_scale.hpp: scale"]}
{"id": "C09", "title": "add() is elementwise and alias-tolerant", "statement": "After add(x, y, z), z(i) is x(i)+y(i) computed from the values before the call, for every element, also when z is the very same view as x or as y (or both); nothing outside z changes and no access is out of range.", "quantifier": "all extents, layouts, accessors, memories, all of the aliasing patterns; rank 1 and 2", "why_tests_cant": "aliasing patterns times all sizes and contents", "anchors": ["include/experimental/__p1673_bits/blas1_linalg_add.hpp: add (add_rank_1, add_rank_2)"]}
{"id": "C10", "title": "dot() and dotc() compute the inner product in index order", "statement": "dot(x, y, init) returns ((init + x0*y0) + x1*y1) + ..., i.e. exactly the left-to-right accumulation with x's element as the left factor, so the result is reproducible even where addition is not associative; in any ring it equals init + sum x_i y_i. dotc(x, y, init) is the same with x_i conjugated. The overloads without init start from zero. No memory changes.", "quantifier": "all lengths, element types (no algebraic law needed for the order statement), accessors, memories", "why_tests_cant": "reproducibility for all inputs cannot be sampled", "anchors": ["include/experimental/__p1673_bits/blas1_dot.hpp: dot, dotc"]}
{"id": "C11", "title": "vector_abs_sum() is the 1-norm (taxicab for complex)", "statement": "vector_abs_sum(v, init) returns init + sum |v_i| for real element types and init + sum (|Re v_i| + |Im v_i|) for complex ones, accumulated in index order; no memory changes; the result is at least init.", "quantifier": "all lengths and contents over the reals / complex numbers", "why_tests_cant": "all lengths and values", "anchors": ["include/experimental/__p1673_bits/blas1_vector_abs_sum.hpp: vector_abs_sum"]}
{"id": "C12", "title": "vector_idx_abs_max() returns the first index of maximum modulus", "statement": "For a non-empty vector the result k is in range, mag(v_k) >= mag(v_i) for all i, where mag is |v| for arithmetic types and |Re v|+|Im v| otherwise, and k is the smallest such index. For an empty vector the result is numeric_limits<size_type>::max(). No memory changes.", "quantifier": "all lengths and contents, any totally ordered magnitude type", "why_tests_cant": "for-all over positions of ties and lengths", "anchors": ["include/experimental/__p1673_bits/blas1_vector_idx_abs_max.hpp: vector_idx_abs_max"]}
{"id": "C13", "title": "vector_sum_of_squares() keeps scale^2*ssq exact", "statement": "Given init with init.scaling_factor >= 0, the result r of vector_sum_of_squares(v, init) satisfies, in exact arithmetic, r.scaling_factor^2 * r.scaled_sum_of_squares = init.scaling_factor^2*init.scaled_sum_of_squares + sum |v_i|^2, and r.scaling_factor = max(init.scaling_factor, max |v_i|), with no division by zero.", "quantifier": "all vectors and initial accumulators over the reals/complex numbers", "why_tests_cant": "all lengths and orderings of magnitudes (the rescaling branch is data-dependent)", "anchors": ["include/experimental/__p1673_bits/blas1_vector_sum_of_squares.hpp: vector_sum_of_squares, sum_of_squares_result"]}
{"id": "C14", "title": "vector_two_norm() is init plus the Euclidean norm", "statement": "vector_two_norm(v) returns sqrt(sum |v_i|^2) in exact arithmetic, never dividing by zero, for every vector including the empty and the zero vector; with init it returns init + that norm.", "quantifier": "all vectors over the reals/complex numbers", "why_tests_cant": "all lengths and magnitude orders", "anchors": ["include/experimental/__p1673_bits/blas1_vector_norm2.hpp: vector_two_norm / vector_norm2"]}
{"id": "C15", "title": "matrix_frob_norm() is the Frobenius norm", "statement": "matrix_frob_norm(A, init) returns init + sqrt(sum |a_ij|^2) in exact arithmetic for every matrix A.", "quantifier": "all matrices over the reals", "why_tests_cant": "depends on the order of magnitudes of the entries; tests use matrices where the running scale increases", "anchors": ["include/experimental/__p1673_bits/blas1_matrix_frob_norm.hpp: matrix_frob_norm"]}
{"id": "C16", "title": "matrix_inf_norm() and matrix_one_norm()", "statement": "matrix_inf_norm(A, init) returns init + max_i sum_j |a_ij| and matrix_one_norm(A, init) returns init + max_j sum_i |a_ij| (the maximum of an empty family being 0), so matrix_one_norm(A) = matrix_inf_norm(transposed(A)); no memory changes.", "quantifier": "all shapes including 0xn, nx0, 1x1, all contents over the reals/complex numbers", "why_tests_cant": "all shapes and contents", "anchors": ["include/experimental/__p1673_bits/blas1_matrix_inf_norm.hpp: matrix_inf_norm", "include/experimental/__p1673_bits/blas1_matrix_one_norm.hpp: matrix_one_norm"]}
{"id": "C17", "title": "setup_givens_rotation() (real) yields a rotation annihilating g", "statement": "For all real f, g the call terminates and returns c, s, r with c*f + s*g = r, -s*f + c*g = 0, c^2 + s^2 = 1 and r^2 = f^2 + g^2, in exact arithmetic, including the branches that rescale very large or very small inputs; if |f| > |g| and the inputs are nonzero then c > 0.", "quantifier": "all real f, g and every scaling threshold 0 < safmn2 < 1", "why_tests_cant": "rescaling loops are data dependent; identity over the reals", "anchors": ["include/experimental/__p1673_bits/blas1_givens.hpp: setup_givens_rotation (real)"]}
{"id": "C18", "title": "setup_givens_rotation() (complex) yields a rotation annihilating g", "statement": "For all complex f, g outside the documented 'f very small' approximation branch, the call returns real c and complex s, r with c*f + s*g = r, -conj(s)*f + c*g = 0 and c^2 + |s|^2 = 1 in exact arithmetic, whatever the magnitude of the inputs.", "quantifier": "all complex f, g", "why_tests_cant": "the error needs inputs below safmn2^2", "anchors": ["include/experimental/__p1673_bits/blas1_givens.hpp: setup_givens_rotation (complex)"]}
{"id": "C19", "title": "setup_givens_rotation() always terminates", "statement": "setup_givens_rotation returns for every floating-point input, including infinities and NaN.", "quantifier": "all floating-point inputs", "why_tests_cant": "non-termination cannot be distinguished from slowness by a test; inputs are special values", "anchors": ["include/experimental/__p1673_bits/blas1_givens.hpp: setup_givens_rotation"]}
{"id": "C20", "title": "apply_givens_rotation() rotates pairs in place", "statement": "After apply_givens_rotation(x, y, c, s), x(i) = c*x0(i) + s*y0(i) and y(i) = c*y0(i) - conj(s)*x0(i) (conj only in the complex-s overload) from the OLD values of both, nothing else changes; if c^2+|s|^2 = 1 then sum |x_i|^2+|y_i|^2 is preserved, and applying (c, -s) afterwards restores x and y.", "quantifier": "all lengths, layouts, contents, c, s", "why_tests_cant": "all inputs; norm preservation is an identity", "anchors": ["include/experimental/__p1673_bits/blas1_givens.hpp: apply_givens_rotation"]}
{"id": "C21", "title": "matrix_vector_product(A,x,y) computes y = A x", "statement": "After the call y(i) is ((0 + a_i0 x_0) + a_i1 x_1) + ... for every row, A may be any read view (scaled, conjugated, transposed), the old contents of y are irrelevant, nothing outside y changes, no access is out of range when the extents agree.", "quantifier": "all shapes incl. zero rows/columns, layouts, accessors, contents", "why_tests_cant": "all shapes and contents, all-memory frame", "anchors": ["include/experimental/__p1673_bits/blas2_matrix_vector_product.hpp: matrix_vector_product (overwriting gemv)"]}
{"id": "C22", "title": "matrix_vector_product(A,x,y,z) computes z = y + A x, z may be y", "statement": "After the call z(i) is (y_i + a_i0 x_0) + ..., also when z and y are the same view; nothing outside z changes.", "quantifier": "all shapes, layouts, accessors, contents, both aliasing cases", "why_tests_cant": "aliasing times all shapes", "anchors": ["include/experimental/__p1673_bits/blas2_matrix_vector_product.hpp: matrix_vector_product (updating gemv)"]}
{"id": "C23", "title": "symmetric_matrix_vector_product uses one triangle of a symmetric matrix", "statement": "With triangle t, the overwriting and updating forms compute y = S x and z = y + S x, where S is the symmetric matrix whose t-triangle is A's. Elements of A outside the triangle are never accessed (they need not even exist); nothing but the output changes.", "quantifier": "all orders, both triangles, contents, layouts, accessors", "why_tests_cant": "the 'never accessed' part and all sizes", "anchors": ["include/experimental/__p1673_bits/blas2_matrix_vector_product.hpp: symmetric_matrix_vector_product"]}
{"id": "C24", "title": "hermitian_matrix_vector_product uses one triangle and the real diagonal", "statement": "As C23 with S Hermitian: the mirrored elements are conjugated and only the real part of the diagonal takes part, so an imaginary part stored on the diagonal has no effect.", "quantifier": "all orders, both triangles, contents", "why_tests_cant": "as C23", "anchors": ["include/experimental/__p1673_bits/blas2_matrix_vector_product.hpp: hermitian_matrix_vector_product"]}
{"id": "C25", "title": "triangular_matrix_vector_product, three forms agree", "statement": "The overwriting, updating and in-place forms compute T x, y + T x and T y (in any ring; the in-place form in commutative rings, for it multiplies in the other order) where T is the triangular matrix given by A, the triangle and the diagonal kind; the in-place form equals the overwriting form run on a copy of the vector. Elements outside the triangle, and the diagonal under implicit_unit_diagonal, are never accessed.", "quantifier": "all orders, triangles, diagonal kinds, contents, layouts", "why_tests_cant": "in-place order dependence must hold at every size", "anchors": ["include/experimental/__p1673_bits/blas2_matrix_vector_product.hpp: triangular_matrix_vector_product"]}
{"id": "C26", "title": "triangular_matrix_vector_solve solves the system", "statement": "Whenever every diagonal element used is nonzero, the solution x written by triangular_matrix_vector_solve(A,t,d,b,x) satisfies T x = b exactly in any field; b may be the same view as x; elements outside the triangle are never accessed and nothing but x changes. With a user-supplied division operator the same holds when a * divide(b,a) = b.", "quantifier": "all orders, triangles, diagonal kinds, right-hand sides, fields; except empty upper systems with a 32-bit unsigned index type (C28)", "why_tests_cant": "correctness for all sizes and fields, in-place order dependence", "anchors": ["include/experimental/__p1673_bits/blas2_matrix_vector_solve.hpp: triangular_matrix_vector_solve, trsv_upper_triangular_left_side, trsv_lower_triangular_left_side"]}
{"id": "C27", "title": "Solving is inverse to multiplying", "statement": "triangular_matrix_vector_solve undoes the in-place triangular_matrix_vector_product and vice versa: running one after the other on the same vector with the same A, triangle and diagonal kind restores the memory exactly (nonzero diagonal).", "quantifier": "all orders, contents, fields; except empty upper systems with a 32-bit unsigned index type (C28)", "why_tests_cant": "round trip for all inputs", "anchors": ["include/experimental/__p1673_bits/blas2_matrix_vector_solve.hpp", "include/experimental/__p1673_bits/blas2_matrix_vector_product.hpp"]}
{"id": "C28", "title": "Empty systems are accepted for every index type", "statement": "triangular solves with a 0x0 matrix perform no access and return, whichever (signed or unsigned, 8 to 64 bit) index type the mdspan has.", "quantifier": "all integral index types", "why_tests_cant": "the failing type must be guessed; depends on integer promotion rules", "anchors": ["include/experimental/__p1673_bits/blas2_matrix_vector_solve.hpp: trsv_upper_triangular_left_side", "include/experimental/__p1673_bits/blas3_triangular_matrix_matrix_solve.hpp: trsm_upper_triangular_left_side"]}
{"id": "C29", "title": "matrix_rank_1_update adds the outer product", "statement": "After matrix_rank_1_update(x,y,A), A(i,j) = old A(i,j) + x_i*y_j for every element (matrix_rank_1_update_c: x_i*conj(y_j)); x and y are unchanged and nothing outside A changes.", "quantifier": "all shapes, layouts, contents", "why_tests_cant": "all shapes and frame", "anchors": ["include/experimental/__p1673_bits/blas2_matrix_rank_1_update.hpp: matrix_rank_1_update, matrix_rank_1_update_c"]}
{"id": "C30", "title": "symmetric rank-1/rank-2 updates touch exactly one triangle", "statement": "symmetric_matrix_rank_1_update ([alpha,] x, A, t) and symmetric_matrix_rank_2_update(x, y, A, t) add [alpha*]x_i*x_j, resp. x_i*y_j + y_i*x_j, to every element of triangle t (diagonal included) exactly once and leave every other element of A and all other memory untouched (never even reading the other triangle).", "quantifier": "all orders, triangles, contents, layouts", "why_tests_cant": "frame and triangle for all orders", "anchors": ["include/experimental/__p1673_bits/blas2_matrix_rank_1_update.hpp: symmetric_matrix_rank_1_update", "include/experimental/__p1673_bits/blas2_matrix_rank_2_update.hpp: symmetric_matrix_rank_2_update"]}
{"id": "C31", "title": "hermitian rank-1/rank-2 updates touch one triangle and give a real diagonal", "statement": "hermitian_matrix_rank_1_update / _rank_2_update add [alpha*]x_i*conj(x_j), resp. x_i*conj(y_j)+y_i*conj(x_j), to triangle t where the old diagonal enters by its real part only; hence, with no alpha or a real alpha, the resulting diagonal is real. Other elements and memory are untouched.", "quantifier": "all orders, triangles, contents, complex or real element types", "why_tests_cant": "as C30, plus realness of the diagonal for all inputs", "anchors": ["include/experimental/__p1673_bits/blas2_matrix_rank_1_update.hpp: hermitian_matrix_rank_1_update", "include/experimental/__p1673_bits/blas2_matrix_rank_2_update.hpp: hermitian_matrix_rank_2_update"]}
{"id": "C32", "title": "matrix_product(A,B,C) computes C = A B", "statement": "After the call C(i,j) is ((0 + a_i0 b_0j) + a_i1 b_1j) + ... ; A and B may be any read views, old C is irrelevant, nothing outside C changes, no out-of-range access for conforming extents (any may be zero). Hence computing into transposed(C) from transposed views equals (AB)^T for commutative elements.", "quantifier": "all shapes, layouts, accessors, contents", "why_tests_cant": "all shapes incl. empty inner dimension; frame", "anchors": ["include/experimental/__p1673_bits/blas3_matrix_product.hpp: matrix_product (overwriting)"]}
{"id": "C33", "title": "matrix_product(A,B,E,C) computes C = E + A B, C may be E", "statement": "After the call C(i,j) is (e_ij + a_i0 b_0j) + ..., also when C and E are the same view; nothing outside C changes.", "quantifier": "all shapes, layouts, accessors, contents, both aliasing cases", "why_tests_cant": "aliasing times all shapes", "anchors": ["include/experimental/__p1673_bits/blas3_matrix_product.hpp: matrix_product (updating)"]}
{"id": "C34", "title": "triangular_matrix_product, left/right, overwriting", "statement": "triangular_matrix_product(A,t,d,B,C) computes C = T B and triangular_matrix_product(B,A,t,d,C) computes C = B T, T being the triangular matrix described by (A,t,d); elements of A outside the triangle (and the diagonal under implicit_unit_diagonal) are never accessed and nothing outside C changes. Index arithmetic does not wrap for any index type.", "quantifier": "all shapes, triangles, diagonals, contents, index types", "why_tests_cant": "all shapes; index wrap at row 0", "anchors": ["include/experimental/__p1673_bits/blas3_matrix_product.hpp: triangular_matrix_product (overwriting left and right)"]}
{"id": "C35", "title": "in-place triangular products equal the out-of-place ones", "statement": "triangular_matrix_left_product(A,t,d,C) replaces C by T C and triangular_matrix_right_product(A,t,d,C) replaces C by C T where the right-hand C is the value before the call.", "quantifier": "all shapes, triangles, diagonals, contents", "why_tests_cant": "order of in-place updates must be right at every size", "anchors": ["include/experimental/__p1673_bits/blas3_matrix_product.hpp: triangular_matrix_left_product, triangular_matrix_right_product"]}
{"id": "C36", "title": "symmetric_matrix_product, overwriting left/right", "statement": "symmetric_matrix_product(A,t,B,C) computes C = S B and symmetric_matrix_product(B,A,t,C) computes C = B S, S being the symmetric matrix with A's t-triangle; the other triangle is never accessed.", "quantifier": "all shapes, triangles, contents", "why_tests_cant": "all shapes; non-access", "anchors": ["include/experimental/__p1673_bits/blas3_matrix_product.hpp: symmetric_matrix_product"]}
{"id": "C37", "title": "hermitian_matrix_product, overwriting left/right", "statement": "hermitian_matrix_product(A,t,B,C) computes C = H B and hermitian_matrix_product(B,A,t,C) computes C = B H where H is the Hermitian matrix with A's t-triangle and the real part of A's diagonal; an imaginary part stored on the diagonal has no effect.", "quantifier": "all shapes, triangles, contents", "why_tests_cant": "all contents incl. non-real diagonals", "anchors": ["include/experimental/__p1673_bits/blas3_matrix_product.hpp: hermitian_matrix_product"]}
{"id": "C38", "title": "updating symmetric/hermitian products compute E + A B", "statement": "The updating overloads symmetric_matrix_product(A,t,B,E,C), hermitian_matrix_product(A,t,B,E,C) and their right-hand versions compute C = E + S B (E + B S).", "quantifier": "all shapes, contents", "why_tests_cant": "unimplemented stub aborts or silently does nothing depending on NDEBUG", "anchors": ["include/experimental/__p1673_bits/blas3_matrix_product.hpp: symmetric_matrix_product (updating), hermitian_matrix_product (updating)"]}
{"id": "C39", "title": "symmetric rank-k / rank-2k updates", "statement": "symmetric_matrix_rank_k_update([alpha,] A, C, t) adds [alpha]*A*A^T and symmetric_matrix_rank_2k_update(A,B,C,t) adds A*B^T + B*A^T to triangle t of C, leaving the other triangle and all other memory untouched (and unread).", "quantifier": "all shapes, triangles, contents", "why_tests_cant": "frame and sums for all shapes", "anchors": ["include/experimental/__p1673_bits/blas3_matrix_rank_k_update.hpp: symmetric_matrix_rank_k_update", "include/experimental/__p1673_bits/blas3_matrix_rank_2k_update.hpp: symmetric_matrix_rank_2k_update"]}
{"id": "C40", "title": "hermitian rank-k / rank-2k updates", "statement": "hermitian_matrix_rank_k_update adds [alpha]*A*A^H and hermitian_matrix_rank_2k_update adds A*B^H + B*A^H to triangle t of C, the old diagonal entering by its real part; with no or real alpha the resulting diagonal is real; the rest is untouched.", "quantifier": "all shapes, triangles, contents", "why_tests_cant": "as C39 plus realness", "anchors": ["include/experimental/__p1673_bits/blas3_matrix_rank_k_update.hpp: hermitian_matrix_rank_k_update", "include/experimental/__p1673_bits/blas3_matrix_rank_2k_update.hpp: hermitian_matrix_rank_2k_update"]}
{"id": "C41", "title": "triangular_matrix_matrix_left_solve solves T X = B", "statement": "With nonzero used diagonal, X written by triangular_matrix_matrix_left_solve satisfies T X = B for every right-hand column (B and X may be the same view); only the triangle is accessed; nothing but X changes. Each column is what triangular_matrix_vector_solve computes.", "quantifier": "all shapes, triangles, diagonals, fields (0x0 systems with upper triangle and 32-bit unsigned index type are C28's subject)", "why_tests_cant": "all sizes; in-place", "anchors": ["include/experimental/__p1673_bits/blas3_triangular_matrix_matrix_solve.hpp: triangular_matrix_matrix_left_solve"]}
{"id": "C42", "title": "triangular_matrix_matrix_right_solve solves X T = B", "statement": "With nonzero used diagonal, X written by triangular_matrix_matrix_right_solve satisfies X T = B for every row (B and X may be the same view); only the triangle is accessed; nothing but X changes.", "quantifier": "all shapes, triangles, diagonals, fields; index types as delimited by C43", "why_tests_cant": "all sizes; narrow index types", "anchors": ["include/experimental/__p1673_bits/blas3_triangular_matrix_matrix_solve.hpp: triangular_matrix_matrix_right_solve"]}
{"id": "C43", "title": "Right solve is correct for every index type", "statement": "triangular_matrix_matrix_right_solve writes the whole solution for every extent representable in the mdspan's index type.", "quantifier": "all integral index types and extents", "why_tests_cant": "only extents above half the range of a narrow unsigned type show it", "anchors": ["include/experimental/__p1673_bits/blas3_triangular_matrix_matrix_solve.hpp: trsm_lower_triangular_right_side"]}
{"id": "C44", "title": "Execution policy never changes the meaning", "statement": "Calling an algorithm with an execution policy runs the custom implementation exactly when one is viable for the mapped policy and the mapped policy is not the inline policy, otherwise the inline algorithm; with no custom implementation the effect equals the call without a policy.", "quantifier": "all policies, mappings, algorithms and inputs", "why_tests_cant": "overload resolution outcomes over all policy types", "anchors": ["include/experimental/__p1673_bits/linalg_execpolicy_mapper.hpp: map_execpolicy_with_check", "include/experimental/__p1673_bits/blas1_linalg_copy.hpp: copy(ExecutionPolicy&&,...)"]}
{"id": "C45", "title": "Parallel matrix traversal visits every element exactly once, in any schedule", "statement": "The parallel matrix and triangle traversals used by the Kokkos back end apply the action to every element (of the triangle) exactly once under every schedule, and when the action on (i,j) only updates element (i,j) the final memory does not depend on the schedule, including interleaving at the granularity of single loads and stores.", "quantifier": "all extents, schedules (interleavings), contents", "why_tests_cant": "schedules cannot be enumerated", "anchors": ["tpl-implementations/include/experimental/__p1673_bits/kokkos-kernels/parallel_matrix.hpp: ParallelMatrixVisitor, for_each_matrix_element, for_each_triangle_matrix_element"]}
{"id": "C46", "title": "Kokkos rank-1/2/k/2k updates equal the inline ones", "statement": "Under every schedule, the Kokkos symmetric/general rank updates leave the same memory as the sequential inline algorithms, and throw without writing when extents mismatch.", "quantifier": "all shapes, schedules, contents", "why_tests_cant": "schedules", "anchors": ["tpl-implementations/include/experimental/__p1673_bits/kokkos-kernels/blas2_matrix_rank_1_update.hpp", "tpl-implementations/include/experimental/__p1673_bits/kokkos-kernels/blas2_matrix_rank_2_update.hpp", "tpl-implementations/include/experimental/__p1673_bits/kokkos-kernels/blas3_matrix_rank_k_update.hpp", "tpl-implementations/include/experimental/__p1673_bits/kokkos-kernels/blas3_matrix_rank_2k_update.hpp"]}
{"id": "C47", "title": "Kokkos hermitian updates treat the diagonal like the inline ones", "statement": "The Kokkos hermitian rank updates produce the same memory as the inline ones for every input, in particular a real diagonal.", "quantifier": "all contents", "why_tests_cant": "needs a non-real stored diagonal", "anchors": ["tpl-implementations/include/experimental/__p1673_bits/kokkos-kernels/blas2_matrix_rank_1_update.hpp: hermitian_matrix_rank_1_update", "tpl-implementations/include/experimental/__p1673_bits/kokkos-kernels/blas3_matrix_rank_k_update.hpp: hermitian_matrix_rank_k_update"]}
{"id": "C48", "title": "Kokkos updating gemv computes y + A x", "statement": "The Kokkos matrix_vector_product(A,x,y,z) leaves z = y + A x for every shape.", "quantifier": "all shapes and contents", "why_tests_cant": "wrong whenever the number of columns is not 1 and y is nonzero", "anchors": ["tpl-implementations/include/experimental/__p1673_bits/kokkos-kernels/blas2_gemv_kk.hpp: matrix_vector_product (updating)"]}
{"id": "C49", "title": "Kokkos triangular products are schedule independent, also in place", "statement": "The Kokkos triangular left/right matrix products compute T B / B T under every schedule, also when input and output are the same matrix.", "quantifier": "all shapes, schedules, contents", "why_tests_cant": "schedules times in-place aliasing", "anchors": ["tpl-implementations/include/experimental/__p1673_bits/kokkos-kernels/blas3_matrix_product_kk.hpp: triangular_matrix_left_product, triangular_matrix_right_product (trmm_left, trmm_right)"]}
{"id": "C50", "title": "Kokkos row-parallel matrix-vector products", "statement": "The Kokkos symmetric/hermitian/triangular matrix-vector products give under every schedule the same result as the inline versions.", "quantifier": "all shapes, schedules, contents", "why_tests_cant": "schedules; non-real diagonals", "anchors": ["tpl-implementations/include/experimental/__p1673_bits/kokkos-kernels/blas2_symv_kk.hpp", "tpl-implementations/include/experimental/__p1673_bits/kokkos-kernels/blas2_hemv_kk.hpp", "tpl-implementations/include/experimental/__p1673_bits/kokkos-kernels/blas2_triangular_mat_vec_product.hpp"]}
{"id": "C51", "title": "Kokkos back end rejects mismatched extents before writing", "statement": "Each Kokkos matrix product overload throws, leaving memory unchanged, whenever the extents of any argument do not conform (including the accumulator E of updating forms).", "quantifier": "all extents", "why_tests_cant": "all mismatching combinations", "anchors": ["tpl-implementations/include/experimental/__p1673_bits/kokkos-kernels/blas3_matrix_product_kk.hpp: check_left, check_right, check_product"]}
{"id": "C52", "title": "Kokkos norms agree with the inline norms", "statement": "Under every parallel execution (assignment of indices to threads, order, shape of the joins) the Kokkos vector_sum_of_squares, vector_two_norm, matrix_frob_norm, matrix_one_norm, matrix_inf_norm and vector_abs_sum return, in exact arithmetic, the value the inline algorithms return, without out-of-range access or division by zero.", "quantifier": "all shapes and contents, all init values, all executions", "why_tests_cant": "special shapes (0 rows), init magnitudes", "anchors": ["tpl-implementations/include/experimental/__p1673_bits/kokkos-kernels/blas1_vector_sum_of_squares_kk.hpp", "tpl-implementations/include/experimental/__p1673_bits/kokkos-kernels/blas1_matrix_frob_norm_kk.hpp", "tpl-implementations/include/experimental/__p1673_bits/kokkos-kernels/blas1_matrix_one_norm_kk.hpp", "tpl-implementations/include/experimental/__p1673_bits/kokkos-kernels/blas1_vector_norm2_kk.hpp", "tpl-implementations/include/experimental/__p1673_bits/kokkos-kernels/blas1_vector_abs_sum_kk.hpp"]}
{"id": "C53", "title": "Triangular solve and in-place triangular product undo each other (matrix versions)", "statement": "triangular_matrix_left_product followed by triangular_matrix_matrix_left_solve (in place, same arguments), and the reverse order, and the same two compositions on the right, restore the whole memory exactly, in every ring with exact division by the used diagonal; no commutativity is needed.", "quantifier": "all shapes, triangles, diagonals, fields (also non-commutative), layouts, contents", "why_tests_cant": "Round trips in floating point hold only up to rounding and only for the sampled matrices; exactness over every field, and that no other cell changes, needs a proof.", "anchors": ["include/experimental/__p1673_bits/blas3_matrix_product.hpp:triangular_matrix_left_product", "include/experimental/__p1673_bits/blas3_triangular_matrix_matrix_solve.hpp:triangular_matrix_matrix_left_solve", "include/experimental/__p1673_bits/blas3_triangular_matrix_matrix_solve.hpp:triangular_matrix_matrix_right_solve"]}
{"id": "C54", "title": "Scaled sum of squares never grows beyond the element count", "statement": "In vector_sum_of_squares with an initial scaled sum at least 1, the scaled sum stays between 1 and its initial value plus the number of elements whatever the magnitudes of the elements, so the accumulation cannot overflow or underflow although the plain sum of squares would.", "quantifier": "all vectors and initial accumulators over the reals/complex numbers", "why_tests_cant": "A test can try a few huge or tiny entries; that no combination of magnitudes makes an intermediate large is a statement about all inputs.", "anchors": ["include/experimental/__p1673_bits/blas1_vector_sum_of_squares.hpp:vector_sum_of_squares"]}
{"id": "C55", "title": "Kokkos back end operates on the elements of the mdspans it is given", "statement": "Every Kokkos overload that accepts an mdspan argument reads and writes the elements that the mdspan's mapping designates, whatever its layout (strided vectors, transposed matrices).", "quantifier": "all accepted layouts, extents and contents", "why_tests_cant": "tests use contiguous vectors; the view drops strides and transpositions without a diagnostic", "anchors": ["tpl-implementations/include/experimental/__p1673_bits/kokkos-kernels/mdspan_to_view_mapper_kk.hpp: mdspan_to_view"]}
{"id": "C56", "title": "Kokkos symmetric and Hermitian matrix products", "statement": "Under every schedule the Kokkos symmetric/Hermitian left/right matrix products store S B, B S (or E + S B, E + B S; E may be C) with S given by one stored triangle, change nothing but C, and leave the same memory as the inline products.", "quantifier": "all shapes, schedules, contents, both triangles", "why_tests_cant": "schedules; non-real stored diagonals", "anchors": ["tpl-implementations/include/experimental/__p1673_bits/kokkos-kernels/blas3_matrix_product_kk.hpp: symmetric_matrix_left_product, symmetric_matrix_right_product, hermitian_matrix_left_product, hermitian_matrix_right_product"]}
{"id": "C57", "title": "Kokkos dot, copy and swap_elements", "statement": "Under every parallel execution the Kokkos dot (any commutative addition), copy between matrices of different layouts and swap_elements (rank 1 and 2) give exactly the value or the memory of the inline algorithms, without data race; dot and swap_elements throw on mismatching extents.", "quantifier": "all shapes, contents, init values, executions and schedules; disjoint operands for copy and swap", "why_tests_cant": "schedules and join shapes cannot be enumerated", "anchors": ["tpl-implementations/include/experimental/__p1673_bits/kokkos-kernels/blas1_dot_kk.hpp: dot", "tpl-implementations/include/experimental/__p1673_bits/kokkos-kernels/blas1_copy_kk.hpp: copy", "tpl-implementations/include/experimental/__p1673_bits/kokkos-kernels/blas1_swap_elements_kk.hpp: swap_elements"]}
{"id": "C58", "title": "BLAS alpha, beta and op(A) through views", "statement": "Replacing the BLAS arguments alpha, beta, trans by scaled, transposed and conjugate_transposed views gives the BLAS results: the updating product computes alpha op(A) x + beta y and alpha op(A) op(B) + beta C in place; rank-1 updates with a scaled vector add alpha x y^T or alpha x y^H; triangular products and solves on a transposed view with the opposite triangle argument use op(T), scaled right-hand sides give op(T) x = alpha b, op(T) X = alpha B, X op(T) = alpha B in place. Nothing but the output changes.", "quantifier": "all extents, layouts, contents, alpha, beta, all op, both triangles and diagonals, both settings of the library macros, any (non-commutative) ring", "why_tests_cant": "combinations of views, ops, layouts, triangles and in-place use cannot be enumerated", "anchors": ["include/experimental/__p1673_bits/scaled.hpp: scaled", "include/experimental/__p1673_bits/transposed.hpp: transposed", "include/experimental/__p1673_bits/conjugate_transposed.hpp: conjugate_transposed", "include/experimental/__p1673_bits/blas2_matrix_vector_product.hpp: matrix_vector_product", "include/experimental/__p1673_bits/blas3_matrix_product.hpp: matrix_product", "include/experimental/__p1673_bits/blas2_matrix_vector_solve.hpp: triangular_matrix_vector_solve", "include/experimental/__p1673_bits/blas3_triangular_matrix_matrix_solve.hpp: triangular_matrix_matrix_left_solve, triangular_matrix_matrix_right_solve", "include/experimental/__p1673_bits/blas2_matrix_rank_1_update.hpp: matrix_rank_1_update, matrix_rank_1_update_c"]}
{"id": "C59", "title": "Rounding error of dot, matrix-vector and matrix-matrix products", "statement": "In IEEE 754 binary arithmetic (round to nearest even, any precision) dot, matrix_vector_product and matrix_product, overwriting and updating, have componentwise error at most ((1+u)^E - 1) sum |terms| plus an underflow term, E the inner extent (one more with an addend), whenever the result is finite; a finite result implies finite inputs; and the result is finite whenever the inputs are and (1+u)^(n+1) sum |terms| plus the underflow term is at most the largest finite number.", "quantifier": "every binary format (prec, emax), all extents, contents incl. subnormal, infinite and NaN, layouts, in-place use of the addend", "why_tests_cant": "rounding, cancellation, underflow and overflow depend on the data; no finite set of inputs bounds the error for all", "anchors": ["include/experimental/__p1673_bits/blas1_dot.hpp: dot", "include/experimental/__p1673_bits/blas2_matrix_vector_product.hpp: matrix_vector_product", "include/experimental/__p1673_bits/blas3_matrix_product.hpp: matrix_product"]}
{"id": "C60", "title": "Triangular solves are substitution in index order in any arithmetic", "statement": "triangular_matrix_vector_solve, triangular_matrix_matrix_left_solve and _right_solve store for unknown i exactly divide(b_i - a_ij x_j - ..., a_ii), the preceding unknowns subtracted left to right in increasing index order, no division with an implicit unit diagonal; the opposite triangle (and an implicit diagonal) is never used; b may be x. No law of arithmetic is assumed, so the statement fixes the result bit for bit for floating-point, integer and user-defined types.", "quantifier": "all element types, divide functions, index types, extents, layouts, contents, both triangles and diagonals", "why_tests_cant": "a test compares with a tolerance and one type; bitwise reproducibility for every type cannot be sampled", "anchors": ["include/experimental/__p1673_bits/blas2_matrix_vector_solve.hpp: triangular_matrix_vector_solve", "include/experimental/__p1673_bits/blas3_triangular_matrix_matrix_solve.hpp: triangular_matrix_matrix_left_solve, triangular_matrix_matrix_right_solve"]}
{"id": "C61", "title": "Triangular solves have a small componentwise residual", "statement": "In IEEE 754 binary arithmetic, if the diagonal elements used and the computed solution are finite, then the right-hand side was finite, no used diagonal element was zero, and |T x - b|_i <= ((1+u)^n - 1) (|T| |x|)_i plus an underflow term, for T x = b, T X = B and X T = B, also in place.", "quantifier": "every binary format, all extents, index types, layouts, contents, both triangles and diagonals", "why_tests_cant": "the bound is needed for ill-conditioned and badly scaled data of every size, which tests cannot enumerate", "anchors": ["include/experimental/__p1673_bits/blas2_matrix_vector_solve.hpp: triangular_matrix_vector_solve", "include/experimental/__p1673_bits/blas3_triangular_matrix_matrix_solve.hpp: triangular_matrix_matrix_left_solve, triangular_matrix_matrix_right_solve"]}
{"id": "C62", "title": "The two-norm is accurate and free of spurious overflow and underflow", "statement": "In IEEE 754 binary arithmetic vector_two_norm returns a finite value whose relative error against init + the Euclidean norm of the magnitudes is of order (5n+3) u (exact bound stated), plus one underflow unit, whenever every magnitude is finite and the norm itself, with this margin, does not exceed the largest finite number; intermediate squares never overflow and an underflow of a scaled square costs only the stated amount. vector_sum_of_squares returns a finite scale and scaled sum with scale^2 * sum equally close to init plus the sum of squares. The scale is exactly the largest of the magnitudes and the initial scale.", "quantifier": "every binary format (prec, emax), all lengths up to the stated bound, layouts, finite contents incl. subnormal and near the largest finite number, initial values", "why_tests_cant": "overflow, underflow and accumulated rounding depend on data and length; tests compare a few well-scaled vectors with a tolerance", "anchors": ["include/experimental/__p1673_bits/blas1_vector_sum_of_squares.hpp: vector_sum_of_squares", "include/experimental/__p1673_bits/blas1_vector_norm2.hpp: vector_two_norm"]}
{"id": "C63", "title": "NaN and infinity are reported by norms, sums and index of the largest element", "statement": "In IEEE 754 arithmetic: a NaN anywhere in the vector makes vector_two_norm and vector_abs_sum NaN; a finite result of either implies that every element and init were finite; infinite elements make vector_two_norm, vector_abs_sum, matrix_inf_norm and matrix_one_norm infinite; a NaN anywhere in a matrix makes its 1- and infinity norm NaN; vector_idx_abs_max returns the first index of a largest magnitude when no magnitude is NaN, and 0 when the first element is NaN.", "quantifier": "every binary format, all extents, layouts, contents, position and number of the NaNs and infinities", "why_tests_cant": "the position and number of exceptional values relative to the other elements decides the outcome; tests use finite data", "anchors": ["include/experimental/__p1673_bits/blas1_vector_norm2.hpp: vector_two_norm", "include/experimental/__p1673_bits/blas1_vector_abs_sum.hpp: vector_abs_sum", "include/experimental/__p1673_bits/blas1_matrix_inf_norm.hpp: matrix_inf_norm", "include/experimental/__p1673_bits/blas1_matrix_one_norm.hpp: matrix_one_norm", "include/experimental/__p1673_bits/blas1_vector_idx_abs_max.hpp: vector_idx_abs_max"]}
{"id": "C64", "title": "Parallel Kokkos reductions stay within the error bound in every execution", "statement": "In IEEE 754 binary arithmetic every execution of the Kokkos vector_abs_sum and dot, whatever the grouping and order of the partial sums, returns a value within ((1+u)^E - 1) sum |terms| (plus an underflow term for products) of the exact value when finite, and is finite when the terms are and the bound is below the largest finite number; vector_norm2 is as free of spurious overflow and underflow as the inline two-norm.", "quantifier": "every binary format, all lengths, layouts, contents, and all reduction trees over all permutations of the indices", "why_tests_cant": "the order of a parallel reduction is not reproducible; a test sees one execution", "anchors": ["tpl-implementations/include/experimental/__p1673_bits/kokkos-kernels/blas1_vector_abs_sum_kk.hpp: vector_abs_sum", "tpl-implementations/include/experimental/__p1673_bits/kokkos-kernels/blas1_dot_kk.hpp: dot", "tpl-implementations/include/experimental/__p1673_bits/kokkos-kernels/blas1_vector_norm2_kk.hpp: vector_norm2"]}
{"id": "C65", "title": "Rounding error of sums of magnitudes and of the 1- and infinity norm", "statement": "In IEEE 754 binary arithmetic vector_abs_sum (real: |x|; complex: |Re x| + |Im x|), matrix_inf_norm and matrix_one_norm are within ((1+u)^k - 1)(|init| + value) of init + value, k the number of additions in a sum; the result is finite whenever the inputs are and (1+u)^k (|init| + value) is at most the largest finite number; a finite vector_abs_sum implies finite inputs.", "quantifier": "every binary format, all extents, layouts, contents, initial values", "why_tests_cant": "the error bound concerns every size and every magnitude distribution", "anchors": ["include/experimental/__p1673_bits/blas1_vector_abs_sum.hpp: vector_abs_sum", "include/experimental/__p1673_bits/blas1_matrix_inf_norm.hpp: matrix_inf_norm", "include/experimental/__p1673_bits/blas1_matrix_one_norm.hpp: matrix_one_norm"]}
{"id": "C66", "title": "Narrow elements with a wide accumulator lose nothing to the narrow type", "statement": "When the elements are of a narrow IEEE 754 type (float) and init or the result is of a wide one (double), vector_abs_sum and vector_two_norm have the error bound and the overflow threshold of the wide type with respect to the exact values of the elements, and so has dot: terms are formed and added in the precision of init.", "quantifier": "every pair of binary formats, the second at least as wide in precision and exponent range; all lengths, layouts, contents, initial values", "why_tests_cant": "the loss appears only for products not representable in the narrow type; tests use small integers", "anchors": ["include/experimental/__p1673_bits/blas1_dot.hpp: dot", "include/experimental/__p1673_bits/blas1_vector_abs_sum.hpp: vector_abs_sum", "include/experimental/__p1673_bits/blas1_vector_norm2.hpp: vector_two_norm", "include/experimental/__p1673_bits/blas1_vector_sum_of_squares.hpp: vector_sum_of_squares"]}
{"id": "C67", "title": "Integer element types", "statement": "With unsigned elements every algorithm computes modulo 2^w (the element type satisfies the ring, commutativity and conjugation laws of the other properties); dot and the updating matrix product in particular return the exact value modulo 2^w. With signed elements dot, matrix-vector and matrix-matrix product, vector_abs_sum, matrix_inf_norm, matrix_one_norm and vector_idx_abs_max return the exact integer, without an overflow (undefined behaviour) on the way, whenever the sum of the magnitudes of the terms is representable. vector_two_norm and matrix_frob_norm return the truncated exact norm.", "quantifier": "every width w, all extents, layouts, contents, initial values within the stated range", "why_tests_cant": "overflow on the way depends on data and order; wrap-around concerns all values", "anchors": ["include/experimental/__p1673_bits/blas1_dot.hpp: dot", "include/experimental/__p1673_bits/blas2_matrix_vector_product.hpp: matrix_vector_product", "include/experimental/__p1673_bits/blas3_matrix_product.hpp: matrix_product", "include/experimental/__p1673_bits/blas1_vector_abs_sum.hpp: vector_abs_sum", "include/experimental/__p1673_bits/blas1_matrix_inf_norm.hpp: matrix_inf_norm", "include/experimental/__p1673_bits/blas1_matrix_one_norm.hpp: matrix_one_norm", "include/experimental/__p1673_bits/blas1_vector_idx_abs_max.hpp: vector_idx_abs_max", "include/experimental/__p1673_bits/blas1_vector_norm2.hpp: vector_two_norm", "include/experimental/__p1673_bits/blas1_matrix_frob_norm.hpp: matrix_frob_norm"]}
{"id": "C68", "title": "Kokkos overloads that delegate to KokkosBlas: sums, scaling, copies, dot, iamax, products", "statement": "Assuming the KokkosBlas routines do what the BLAS documents, the Kokkos overloads of add, scale, copy, dotc, vector_idx_abs_max, matrix_vector_product and matrix_product pass them arguments within their requirements and end with exactly the result of the sequential algorithm, writing nothing but the output; they throw exactly when the extents do not match. This holds for every layout that has a Kokkos view, including transposed operands and results.", "quantifier": "all extents, contents, layouts with a Kokkos view, accessors accepted by the overload, overlap of input and output allowed element by element where the routine allows it; every behaviour of the routines within their guarantees", "why_tests_cant": "arguments of a delegated call (extents, transposition flag, beta = 0) are right or wrong for whole classes of inputs; tests use a few shapes and need the library", "anchors": ["tpl-implementations/include/experimental/__p1673_bits/kokkos-kernels/blas1_add_kk.hpp: add", "tpl-implementations/include/experimental/__p1673_bits/kokkos-kernels/blas1_scale_kk.hpp: scale", "tpl-implementations/include/experimental/__p1673_bits/kokkos-kernels/blas1_copy_kk.hpp: copy", "tpl-implementations/include/experimental/__p1673_bits/kokkos-kernels/blas1_dot_kk.hpp: dot", "tpl-implementations/include/experimental/__p1673_bits/kokkos-kernels/blas1_idx_abs_max_kk.hpp: vector_idx_abs_max", "tpl-implementations/include/experimental/__p1673_bits/kokkos-kernels/blas2_gemv_kk.hpp: matrix_vector_product", "tpl-implementations/include/experimental/__p1673_bits/kokkos-kernels/blas3_overwriting_gemm_kk.hpp: matrix_product", "tpl-implementations/include/experimental/__p1673_bits/kokkos-kernels/mdspan_to_view_mapper_kk.hpp: mdspan_to_view"]}
{"id": "C69", "title": "Kokkos triangular products and solves delegate with the right triangle", "statement": "Assuming KokkosBlas trmm and trsm do what the BLAS documents for some fixed meaning of \"L\" and \"U\", the Kokkos overloads of triangular_matrix_vector_solve, triangular_matrix_matrix_left/right_solve and triangular_matrix_left/right_product (explicit diagonal, with and without separate output) use the triangle named by the caller, leave the solution or product in the output, write nothing else, and throw exactly when the extents do not match.", "quantifier": "all extents, contents, layout_left and layout_right, both triangles, both diagonals for solves; every behaviour of the routines within their guarantees", "why_tests_cant": "a wrong triangle is invisible for symmetric or diagonal test data, and two wrong conventions can cancel in a test that checks one by the other", "anchors": ["tpl-implementations/include/experimental/__p1673_bits/kokkos-kernels/blas2_triangular_matrix_vector_solve.hpp: triangular_matrix_vector_solve", "tpl-implementations/include/experimental/__p1673_bits/kokkos-kernels/blas3_triangular_matrix_matrix_solve.hpp: trsm, triangular_matrix_matrix_left_solve, triangular_matrix_matrix_right_solve", "tpl-implementations/include/experimental/__p1673_bits/kokkos-kernels/blas3_matrix_product_kk.hpp: trmm_kk, triangular_matrix_left_product, triangular_matrix_right_product"]}
{"id": "C70", "title": "Rounding error of symmetric and triangular products and of rank updates", "statement": "In IEEE arithmetic of any binary format, every element computed by the symmetric and triangular matrix-vector and matrix-matrix products and by the rank-1, rank-2, rank-k and rank-2k updates differs from the exact value by at most ((1+u)^E - 1) times the sum of the magnitudes of its terms plus the effect of underflow, where E is the number of roundings on the longest path. A finite result implies that every number it depends on is finite; numbers outside the triangle, and an implicit diagonal, have no influence. The result is finite whenever the inputs are and the bound stays below the overflow threshold.", "quantifier": "all formats, extents, layouts, triangles, diagonals, contents including infinities and NaN", "why_tests_cant": "rounding errors depend on every bit of the data and grow with the length; a test compares a few results with a tolerance", "anchors": ["include/experimental/__p1673_bits/blas2_matrix_vector_product.hpp: symmetric_matrix_vector_product, triangular_matrix_vector_product", "include/experimental/__p1673_bits/blas3_matrix_product.hpp: symmetric_matrix_product, triangular_matrix_product", "include/experimental/__p1673_bits/blas2_matrix_rank_1_update.hpp: matrix_rank_1_update, symmetric_matrix_rank_1_update", "include/experimental/__p1673_bits/blas2_matrix_rank_2_update.hpp: symmetric_matrix_rank_2_update", "include/experimental/__p1673_bits/blas3_matrix_rank_k_update.hpp: symmetric_matrix_rank_k_update", "include/experimental/__p1673_bits/blas3_matrix_rank_2k_update.hpp: symmetric_matrix_rank_2k_update"]}
{"id": "C71", "title": "Rounding error of complex products, updates and triangular solves", "statement": "For complex numbers over any IEEE binary format, the real and the imaginary part of every element computed by dot, dotc, the general, symmetric, Hermitian and (out-of-place) triangular products and the symmetric, Hermitian and scaled rank updates differ from the exact values by at most ((1+u)^E - 1) times the sum of the magnitudes of the real terms plus the effect of underflow. A finite result implies finite inputs; the result is finite whenever the inputs are and the bounds stay below the overflow threshold, whatever the multiplication does when both parts of a product are NaN. Each unknown computed by the triangular solves is, in the same sense, an accurate difference of the right-hand side and the terms of the preceding unknowns, divided (with the complex division of the library, whatever it is) by the diagonal element unless that is implicitly one.", "quantifier": "all formats, extents, layouts, triangles, contents including infinities and NaN; every fallback of the complex multiplication that does not return a finite number", "why_tests_cant": "cancellation between the products of real and imaginary parts depends on the bits of the data; tests cannot enumerate them, nor the fallbacks of different standard libraries", "anchors": ["include/experimental/__p1673_bits/blas1_dot.hpp: dot, dotc", "include/experimental/__p1673_bits/blas2_matrix_vector_product.hpp: matrix_vector_product, hermitian_matrix_vector_product, symmetric_matrix_vector_product", "include/experimental/__p1673_bits/blas3_matrix_product.hpp: matrix_product, hermitian_matrix_product", "include/experimental/__p1673_bits/blas2_matrix_rank_1_update.hpp: matrix_rank_1_update, matrix_rank_1_update_c, hermitian_matrix_rank_1_update", "include/experimental/__p1673_bits/blas2_matrix_rank_2_update.hpp: hermitian_matrix_rank_2_update", "include/experimental/__p1673_bits/blas3_matrix_rank_k_update.hpp: hermitian_matrix_rank_k_update", "include/experimental/__p1673_bits/blas3_matrix_rank_2k_update.hpp: hermitian_matrix_rank_2k_update", "include/experimental/__p1673_bits/conj_if_needed.hpp: conj_if_needed", "include/experimental/__p1673_bits/blas2_matrix_vector_solve.hpp: triangular_matrix_vector_solve", "include/experimental/__p1673_bits/blas3_triangular_matrix_matrix_solve.hpp: triangular_matrix_matrix_left_solve, triangular_matrix_matrix_right_solve"]}
{"id": "C72", "title": "Extents known at compile time", "statement": "transposed() exchanges the static and the run-time extents of its argument, whichever of them are static. Every call whose run-time extents satisfy the precondition passes the compile-time checks, and a call whose extents are static and violate it does not compile: for dot, givens_rotation_apply, copy, swap_elements, add and for the matrix-vector and matrix-matrix products.", "quantifier": "all combinations of static and dynamic extents and all values", "why_tests_cant": "a static_assert is checked per instantiation; a test cannot contain a call that must not compile, nor all combinations of extents", "anchors": ["include/experimental/__p1673_bits/transposed.hpp: transpose_extents", "include/experimental/__p1673_bits/blas1_dot.hpp: dot", "include/experimental/__p1673_bits/blas1_givens.hpp: givens_rotation_apply", "include/experimental/__p1673_bits/blas1_linalg_copy.hpp: copy", "include/experimental/__p1673_bits/blas1_linalg_swap.hpp: swap_elements", "include/experimental/__p1673_bits/blas1_linalg_add.hpp: add", "include/experimental/__p1673_bits/blas2_matrix_vector_product.hpp: matrix_vector_product", "include/experimental/__p1673_bits/blas3_matrix_product.hpp: matrix_product"]}
{"id": "C73", "title": "layout_blas_general", "statement": "A layout_blas_general mapping sends element (i, j) to i + j*LDA (column-major) or i*LDA + j (row-major), within the required span; is_unique() is true only when distinct elements have distinct offsets; transposing the mapping exchanges the indices without moving elements.", "quantifier": "all extents, leading dimensions and storage orders", "why_tests_cant": "no test of the repository instantiates the layout with a leading dimension; the claim ranges over all extents and leading dimensions", "anchors": ["include/experimental/__p1673_bits/layout_blas_general.hpp: layout_blas_general", "include/experimental/__p1673_bits/transposed.hpp: transposed_layout"]}
{"id": "C74", "title": "Accuracy of real plane rotations in IEEE arithmetic", "statement": "For all finite real f and g, setup_givens_rotation computes c, s and r within a few units in the last place (plus the effect of underflow) of f/R, g/R and R = sqrt(f^2 + g^2), up to one common sign: if neither is zero, c > 0 if |f| > |g| and r > 0 otherwise. r overflows only if R nearly does, never because of f^2 + g^2. Hence c^2 + s^2 is 1 and (f, g) is rotated to (r, 0) up to rounding; with a zero argument, exactly. apply_givens_rotation computes every element within two roundings and changes nothing else.", "quantifier": "all finite arguments, in every binary format of at least four bits whose scaling constant fits (double and float do); all vectors", "why_tests_cant": "the scaling loops depend on the magnitudes of both arguments over the whole exponent range; tests sample a few pairs of moderate size", "anchors": ["include/experimental/__p1673_bits/blas1_givens.hpp: setup_givens_rotation", "include/experimental/__p1673_bits/blas1_givens.hpp: apply_givens_rotation"]}
{"id": "C75", "title": "The operations are those of matrix algebra", "statement": "Over every commutative ring with division (in particular every field) the products compute M v, M N, K + M N with the matrices of mathematical matrix algebra, rank updates add v w^T, M M^T, M K^T + K M^T, transposed() is the transposed matrix, and the triangular solves compute M^-1 v, M^-1 N and N M^-1 for every invertible triangular M. Hence the sequences of calls users write are correct: two solves with the factors of an LU decomposition kept in one matrix give (L U)^-1 N, two solves with L and transposed(L) give (L L^T)^-1 N. Nothing but the output changes.", "quantifier": "all rings, shapes, layouts, contents; all triangles and diagonals", "why_tests_cant": "the claim is about all elements of all rings and about compositions of calls; tests compare a few results with hand-computed numbers", "anchors": ["include/experimental/__p1673_bits/blas2_matrix_vector_product.hpp: matrix_vector_product, symmetric_matrix_vector_product, triangular_matrix_vector_product", "include/experimental/__p1673_bits/blas2_matrix_rank_1_update.hpp: matrix_rank_1_update", "include/experimental/__p1673_bits/blas2_matrix_vector_solve.hpp: triangular_matrix_vector_solve", "include/experimental/__p1673_bits/blas3_matrix_product.hpp: matrix_product, symmetric_matrix_product, triangular_matrix_left_product, triangular_matrix_right_product", "include/experimental/__p1673_bits/blas3_matrix_rank_k_update.hpp: symmetric_matrix_rank_k_update", "include/experimental/__p1673_bits/blas3_matrix_rank_2k_update.hpp: symmetric_matrix_rank_2k_update", "include/experimental/__p1673_bits/blas3_triangular_matrix_matrix_solve.hpp: triangular_matrix_matrix_left_solve, triangular_matrix_matrix_right_solve", "include/experimental/__p1673_bits/transposed.hpp: transposed"]}
{"id": "C76", "title": "Signed integers: when exactly behaviour is undefined; integer solves", "statement": "With signed integer elements dot, the updating matrix product, scale and vector_abs_sum have undefined behaviour exactly if some product, magnitude or partial sum (in index order) leaves the range of the type, even if the final value would be representable; otherwise they return the exact integer. Triangular solves, with vectors and from either side with matrices, perform substitution with quotients truncated towards zero: if the system has an integer solution and the magnitudes stay in range they return it, and a zero on an explicit diagonal is undefined behaviour. Nothing but the output changes.", "quantifier": "every width w, all extents, layouts, contents, initial values; both triangles and diagonals", "why_tests_cant": "undefined behaviour need not show in a test; the exact condition concerns all values and all partial sums", "anchors": ["include/experimental/__p1673_bits/blas1_dot.hpp: dot", "include/experimental/__p1673_bits/blas3_matrix_product.hpp: matrix_product", "include/experimental/__p1673_bits/blas1_scale.hpp: scale", "include/experimental/__p1673_bits/blas1_vector_abs_sum.hpp: vector_abs_sum", "include/experimental/__p1673_bits/blas2_matrix_vector_solve.hpp: triangular_matrix_vector_solve", "include/experimental/__p1673_bits/blas3_triangular_matrix_matrix_solve.hpp: triangular_matrix_matrix_left_solve"]}
{"id": "C77", "title": "Proxy references stand for the value they denote", "statement": "conjugated_scalar and scaled_scalar, also nested, can be used in place of the conjugate or multiple of the element they refer to: conversion, the operators + - * / with a proxy or a value on either side, negation, abs, real, imag, conj and == give what the same operation gives for that value, computed from the content of the element at the time of use; nothing is written.", "quantifier": "all types with any operations, all nestings of proxies, factors, contents, operators", "why_tests_cant": "combinations of element, factor and operand types and of nested proxies are unbounded; the tests use one type at a time", "anchors": ["include/experimental/__p1673_bits/proxy_reference.hpp: proxy_reference, conjugated_scalar, scaled_scalar"]}
{"id": "C78", "title": "copy, swap_elements, scale and add act on every element whatever the rank", "statement": "For objects x, y, z of any rank for which the call compiles (equal ranks, at most two), copy, swap_elements, scale and add act on the elements at all index tuples: afterwards y(i...) is the old x(i...), the two are exchanged, x(i...) is the old x(i...) * alpha, z(i...) is x(i...) + y(i...); no other cell changes. A rank-0 object has exactly one element.", "quantifier": "all ranks, extents, mappings, accessors, contents, and objects that are disjoint or aligned", "why_tests_cant": "every mapping and shape; the rank dispatch is chosen at compile time and the tests instantiate it for vectors and matrices only", "anchors": ["include/experimental/__p1673_bits/blas1_linalg_copy.hpp: copy", "include/experimental/__p1673_bits/blas1_linalg_swap.hpp: swap_elements", "include/experimental/__p1673_bits/blas1_scale.hpp: scale", "include/experimental/__p1673_bits/blas1_linalg_add.hpp: add"]}
{"id": "C79", "title": "A call whose policy maps to the inline policy runs no custom implementation, nested calls included", "statement": "When the policy of a call is mapped to the inline policy, the loops that run in the end are those of the library: the called algorithm's own, those of vector_sum_of_squares of the same vector for vector_two_norm, those of the overload with a division for the vector solve without one. The body of an inline overload does not hand the work to a custom implementation of some other policy.", "quantifier": "all algorithms, argument lists, policies mapped to the inline one, value categories, policy mappings and sets of custom implementations", "why_tests_cant": "the outcome depends on which mappers and customizations exist in the translation unit; no test enumerates environments", "anchors": ["include/experimental/__p1673_bits/blas3_triangular_matrix_matrix_solve.hpp: triangular_matrix_matrix_solve", "include/experimental/__p1673_bits/blas1_vector_norm2.hpp: vector_two_norm", "include/experimental/__p1673_bits/blas2_matrix_vector_solve.hpp: triangular_matrix_vector_solve", "include/experimental/__p1673_bits/linalg_execpolicy_mapper.hpp: execpolicy_mapper"]}
{"id": "C80", "title": "Triangular solves of mixed element types accumulate in the type of B - A * X", "statement": "When A, B and X have different element types, each unknown is the substitution computed with an accumulator of the type of B - A * X and converted once to the element type of X; in particular a column of triangular_matrix_matrix_left_solve is what triangular_matrix_vector_solve gives for that column.", "quantifier": "all element types with their conversions and operators, extents, index types, layouts, triangles, diagonal kinds, contents, in-place or disjoint right-hand sides", "why_tests_cant": "all types, sizes and values; the tests use one element type for all arguments", "anchors": ["include/experimental/__p1673_bits/blas2_matrix_vector_solve.hpp: trsv_lower_triangular_left_side, trsv_upper_triangular_left_side", "include/experimental/__p1673_bits/blas3_triangular_matrix_matrix_solve.hpp: trsm_lower_triangular_left_side, trsm_upper_triangular_left_side, trsm_lower_triangular_right_side, trsm_upper_triangular_right_side"]}
{"id": "C81", "title": "Mixed element types: products are computed in the type of their terms and converted once to the output", "statement": "When the arguments have different element types, copy, scale and add compute in the common type of the operands and convert once to the element type of the output. dot, matrix_vector_product and matrix_product give the sum computed in the type of its terms, converted once to the type of init or of the output's elements; matrix_rank_1_update adds each product in the common type and converts once.", "quantifier": "all element types with their conversions and operators, extents, layouts, accessors, contents, scaling factors and aliasing allowed by the preconditions", "why_tests_cant": "all types, sizes and values; the tests use one element type for all arguments", "anchors": ["include/experimental/__p1673_bits/blas1_dot.hpp: dot", "include/experimental/__p1673_bits/blas2_matrix_vector_product.hpp: matrix_vector_product", "include/experimental/__p1673_bits/blas3_matrix_product.hpp: matrix_product", "include/experimental/__p1673_bits/blas2_matrix_rank_1_update.hpp: matrix_rank_1_update", "include/experimental/__p1673_bits/blas1_linalg_add.hpp: add", "include/experimental/__p1673_bits/blas1_linalg_copy.hpp: copy", "include/experimental/__p1673_bits/blas1_scale.hpp: scale"]}
{"id": "C82", "title": "Kokkos back end: the work is done when an algorithm returns", "statement": "When an algorithm run through the Kokkos back end returns, everything it has enqueued has been carried out: no region or library call is pending, the output can be read by the host, and memory is that after a complete execution.", "quantifier": "all overloads that write memory, arguments, memories and interleavings of the host with the execution space", "why_tests_cant": "depends on the timing of an asynchronous execution space; the tests run on host spaces where launches block", "anchors": ["tpl-implementations/include/experimental/__p1673_bits/kokkos-kernels/parallel_matrix.hpp: ParallelMatrixVisitor", "tpl-implementations/include/experimental/__p1673_bits/kokkos-kernels/blas3_matrix_product_kk.hpp: trmm_left, trmm_right, trmm_kk", "tpl-implementations/include/experimental/__p1673_bits/kokkos-kernels/blas1_copy_kk.hpp: copy", "tpl-implementations/include/experimental/__p1673_bits/kokkos-kernels/blas1_add_kk.hpp: add", "tpl-implementations/include/experimental/__p1673_bits/kokkos-kernels/blas1_scale_kk.hpp: scale", "tpl-implementations/include/experimental/__p1673_bits/kokkos-kernels/blas2_gemv_kk.hpp: matrix_vector_product", "tpl-implementations/include/experimental/__p1673_bits/kokkos-kernels/blas3_triangular_matrix_matrix_solve.hpp: trsm"]}
{"id": "C83", "title": "Integers of every width: results are exact up to reduction to the element type", "statement": "scale, add, dot, the (updating) matrix-vector and matrix-matrix products and the rank-1 update on integers of one type give the exact result reduced modulo 2^w to that type, and dot without init gives it in the type of a product; for unsigned types and types narrower than int this holds for all values.", "quantifier": "all integer types (width and signedness), shapes, layouts and values", "why_tests_cant": "values and lengths at which an intermediate product overflows are not covered by any test, and overflow is undefined rather than visibly wrong", "anchors": ["include/experimental/__p1673_bits/blas1_dot.hpp: dot", "include/experimental/__p1673_bits/blas1_scale.hpp: scale", "include/experimental/__p1673_bits/blas1_linalg_add.hpp: add", "include/experimental/__p1673_bits/blas2_matrix_vector_product.hpp: matrix_vector_product", "include/experimental/__p1673_bits/blas3_matrix_product.hpp: matrix_product", "include/experimental/__p1673_bits/blas2_matrix_rank_1_update.hpp: matrix_rank_1_update"]}
{"id": "C84", "title": "The results do not depend on the index types of the arguments", "statement": "Every inline algorithm loops on counters of the common type of its arguments' index types (or their unsigned size types, in the updating matrix-vector products), with C++'s promotions, conversions, wrap-around and undefined signed overflow. For all index types that can represent the extents, mixed signedness and widths included, it has exactly the outcome, value and final memory of the algorithm with unbounded counters: no loop ends early, runs on, wraps around or overflows.", "quantifier": "all combinations of index types (width and signedness), all extents they can represent, all element types, layouts and memories; fuel larger than the extents", "why_tests_cant": "the tests use one index type and small extents; a counter that wraps, or a comparison of a signed counter with an unsigned extent, is wrong only at the limits of a type or for a combination no test instantiates", "anchors": ["include/experimental/__p1673_bits/blas1_linalg_copy.hpp: copy", "include/experimental/__p1673_bits/blas1_dot.hpp: dot", "include/experimental/__p1673_bits/blas2_matrix_vector_product.hpp: matrix_vector_product, triangular_matrix_vector_product", "include/experimental/__p1673_bits/blas2_matrix_vector_solve.hpp: trsv_upper_triangular_left_side", "include/experimental/__p1673_bits/blas2_matrix_rank_1_update.hpp: symmetric_matrix_rank_1_update", "include/experimental/__p1673_bits/blas3_matrix_product.hpp: matrix_product, triangular_matrix_left_product", "include/experimental/__p1673_bits/blas3_triangular_matrix_matrix_solve.hpp", "include/experimental/__p1673_bits/blas1_matrix_one_norm.hpp: matrix_one_norm"]}
{"id": "C85", "title": "Calls that do not store to each other's elements can run concurrently", "statement": "Every inline algorithm only loads from the elements of its inputs (for triangular, symmetric and Hermitian matrices: of the named triangle, without the diagonal if it is implicit) and only loads from and stores to the elements of its outputs (of the named triangle for symmetric and Hermitian updates), never even temporarily to anything else. Hence any number of calls in different threads, none of which stores to elements another one uses, have no data race, always finish, and give each thread the result, and leave in memory the values, of running alone, in every interleaving of their loads and stores.", "quantifier": "all algorithms, shapes, layouts, accessors, element types, memory contents, numbers of threads and interleavings", "why_tests_cant": "interleavings of threads are not enumerated by tests, a data race rarely shows, and a store of the value already present is invisible in the final state", "anchors": ["include/experimental/__p1673_bits/blas1_linalg_copy.hpp: copy", "include/experimental/__p1673_bits/blas2_matrix_vector_product.hpp: symmetric_matrix_vector_product, triangular_matrix_vector_product", "include/experimental/__p1673_bits/blas2_matrix_vector_solve.hpp: triangular_matrix_vector_solve", "include/experimental/__p1673_bits/blas2_matrix_rank_1_update.hpp: symmetric_matrix_rank_1_update, hermitian_matrix_rank_1_update", "include/experimental/__p1673_bits/blas3_matrix_product.hpp", "include/experimental/__p1673_bits/blas3_matrix_rank_k_update.hpp", "include/experimental/__p1673_bits/blas3_triangular_matrix_matrix_solve.hpp", "include/experimental/__p1673_bits/blas1_matrix_frob_norm.hpp"]}
{"id": "C86", "title": "Elements are used only through the operations of their type: results transfer along any relation the operations respect", "statement": "Take any relation between two element types under which zero is related to zero and +, -, *, conj and real (for solves also the division, for norms also magnitudes and their comparisons) take related operands to related results. Then every algorithm, run on two memories with related contents through views of the same shape, layout and accessors (factors of scaled views related), has the same outcome in both runs, and returns and leaves in memory related values. In particular results commute with homomorphisms (reduction of integers modulo 2^w, real data as complex data), and stay in any subset closed under the operations. The same holds for the set-up of rotations, and for the parallel algorithms and reductions of the Kokkos back end, for every schedule: they throw or fail to compile for the same arguments, and each complete execution of one has a counterpart of the other.", "quantifier": "all pairs of element types, all relations their operations respect, all algorithms, shapes, layouts, accessors and related memory contents, all schedules", "why_tests_cant": "a test fixes the element types and the values; independence of the element type is a statement about all pairs of types, including user-defined ones", "anchors": ["include/experimental/__p1673_bits/blas1_dot.hpp: dot, dotc", "include/experimental/__p1673_bits/blas1_vector_norm2.hpp: vector_two_norm", "include/experimental/__p1673_bits/blas2_matrix_vector_product.hpp", "include/experimental/__p1673_bits/blas2_matrix_vector_solve.hpp: triangular_matrix_vector_solve", "include/experimental/__p1673_bits/blas2_matrix_rank_1_update.hpp", "include/experimental/__p1673_bits/blas3_matrix_product.hpp", "include/experimental/__p1673_bits/blas3_matrix_rank_k_update.hpp", "include/experimental/__p1673_bits/blas3_triangular_matrix_matrix_solve.hpp", "include/experimental/__p1673_bits/scaled.hpp: scaled_accessor", "include/experimental/__p1673_bits/conjugated.hpp: conjugated_accessor", "tpl-implementations/include/experimental/__p1673_bits/kokkos-kernels/blas2_symv_kk.hpp", "tpl-implementations/include/experimental/__p1673_bits/kokkos-kernels/blas3_matrix_product_kk.hpp"]}
{"id": "C87", "title": "In-place triangular products, operation by operation, and their rounding error", "statement": "In every arithmetic, with no algebraic law assumed, the in-place triangular products compute each element as the diagonal term (the old element itself when the diagonal is implicitly one) to which the other terms of its row (column) are added one by one, each formed from the old contents: for the left and the vector product moving away from the diagonal, for the right product in increasing order of the index. In real IEEE arithmetic of every binary format the result therefore has the same error bound as the product into a separate output, is finite when the bounds stay below the overflow threshold, and only if the inputs it uses are; the two need not be equal.", "quantifier": "all element types, formats, extents, layouts, triangles, both kinds of diagonal, all contents including infinities and NaN", "why_tests_cant": "an element overwritten too early shows only for some triangle, size and content, and rounding errors depend on the bits of the data", "anchors": ["include/experimental/__p1673_bits/blas2_matrix_vector_product.hpp: triangular_matrix_vector_product (in place)", "include/experimental/__p1673_bits/blas3_matrix_product.hpp: triangular_matrix_left_product, triangular_matrix_right_product (in place)"]}
{"id": "C88", "title": "NaN reaches every result that depends on it", "statement": "Call elements bad if every +, -, *, /, conj and real with a bad operand has a bad result; NaN is bad in every real IEEE format. Then a bad element of an input, old output or coefficient makes bad every element of the result that depends on it: in products, all elements of its row (column), also when it meets a zero; in symmetric and Hermitian products also those reached through the mirrored element; in triangular products exactly through the stored triangle; in rank updates every element of the updated triangle in its row or column; in solves its unknown and all later ones. No factor, coefficient or rotation is skipped because it is zero or one.", "quantifier": "all element types, all predicates closed under the operations, all extents, layouts, triangles, diagonals, contents; every real IEEE format for NaN", "why_tests_cant": "a shortcut that skips zero factors is invisible on finite data; a test with NaN tries one position in one shape", "anchors": ["include/experimental/__p1673_bits/blas1_scale.hpp: scale", "include/experimental/__p1673_bits/blas1_linalg_add.hpp: add", "include/experimental/__p1673_bits/blas1_dot.hpp: dot, dotc", "include/experimental/__p1673_bits/blas1_givens.hpp: apply_givens_rotation", "include/experimental/__p1673_bits/blas2_matrix_vector_product.hpp", "include/experimental/__p1673_bits/blas2_matrix_vector_solve.hpp: triangular_matrix_vector_solve", "include/experimental/__p1673_bits/blas2_matrix_rank_1_update.hpp", "include/experimental/__p1673_bits/blas2_matrix_rank_2_update.hpp", "include/experimental/__p1673_bits/blas3_matrix_product.hpp", "include/experimental/__p1673_bits/blas3_matrix_rank_k_update.hpp", "include/experimental/__p1673_bits/blas3_matrix_rank_2k_update.hpp", "include/experimental/__p1673_bits/blas3_triangular_matrix_matrix_solve.hpp"]}
{"id": "C89", "title": "Packed matrices", "statement": "An array of n(n+1)/2 elements viewed through the packed mapping (one triangle, column by column or row by row) is that triangle of a matrix: the mapping enumerates the triangle without gaps or repetitions and gives a position outside it the place of the mirrored element; transposed() of a packed matrix views the same cells as the other triangle in the other order. Symmetric, Hermitian and triangular products and solves with such a matrix give the results of the full matrix, rank-1, -2, -k and -2k updates leave exactly the updated triangle in the array, and no cell outside the output changes. Called with the tag of the other triangle a symmetric product is unchanged and a Hermitian product is that of the transpose. Not so for the Kokkos overloads: they accept packed matrices in their constraints but do not compile for them.", "quantifier": "all n, both triangles, both orders, all positions of the array, all element types and contents", "why_tests_cant": "offset formulas with halved products are wrong for some n only, and the repository, which declares but never defines the layout, has no test of it", "anchors": ["include/experimental/__p1673_bits/layout_triangle.hpp: layout_blas_packed", "include/experimental/__p1673_bits/transposed.hpp: transposed_layout<layout_blas_packed>, opposite_triangle_t", "include/experimental/__p1673_bits/blas2_matrix_vector_product.hpp", "include/experimental/__p1673_bits/blas2_matrix_vector_solve.hpp", "include/experimental/__p1673_bits/blas2_matrix_rank_1_update.hpp", "include/experimental/__p1673_bits/blas2_matrix_rank_2_update.hpp", "include/experimental/__p1673_bits/blas3_matrix_product.hpp", "include/experimental/__p1673_bits/blas3_matrix_rank_k_update.hpp", "include/experimental/__p1673_bits/blas3_matrix_rank_2k_update.hpp", "include/experimental/__p1673_bits/blas3_triangular_matrix_matrix_solve.hpp", "tpl-implementations/include/experimental/__p1673_bits/kokkos-kernels/triangle.hpp: is_layout_blas_packed, triangle_layout_match", "tpl-implementations/include/experimental/__p1673_bits/kokkos-kernels/mdspan_to_view_mapper_kk.hpp: LayoutMapper"]}
{"id": "C90", "title": "The helpers for conj, real, imag and abs depend on the element type only as documented", "statement": "For arithmetic element types and for user-defined types without a conj found by argument-dependent lookup, conjugation does nothing: dotc, matrix_rank_1_update_c and the rotation with complex sine have the effect of their plain versions, and every Hermitian product and rank update leaves the same memory as the symmetric algorithm of the same arguments. For the other types conj and real are the functions of the type. vector_abs_sum adds unsigned elements as they are, signed and floating-point ones through std::abs, and the magnitudes of both parts for types with real and imag; it does not compile for types without abs.", "quantifier": "all element types of each kind with arbitrary arithmetic (no laws), all shapes, layouts, accessors, contents and triangles", "why_tests_cant": "the repository's tests use double and std::complex<double> for these; whether a Hermitian algorithm agrees with the symmetric one bit for bit, in non-associative arithmetic too, is a statement about every type and content", "anchors": ["include/experimental/__p1673_bits/conj_if_needed.hpp: conj_if_needed", "include/experimental/__p1673_bits/real_if_needed.hpp: real_if_needed", "include/experimental/__p1673_bits/imag_if_needed.hpp: imag_if_needed", "include/experimental/__p1673_bits/abs_if_needed.hpp: abs_if_needed", "include/experimental/__p1673_bits/blas1_dot.hpp: dotc", "include/experimental/__p1673_bits/blas1_givens.hpp: apply_givens_rotation", "include/experimental/__p1673_bits/blas1_vector_abs_sum.hpp: vector_abs_sum", "include/experimental/__p1673_bits/blas2_matrix_vector_product.hpp: hermitian_matrix_vector_product", "include/experimental/__p1673_bits/blas2_matrix_rank_1_update.hpp: matrix_rank_1_update_c, hermitian_matrix_rank_1_update", "include/experimental/__p1673_bits/blas2_matrix_rank_2_update.hpp: hermitian_matrix_rank_2_update", "include/experimental/__p1673_bits/blas3_matrix_product.hpp: hermitian_matrix_product", "include/experimental/__p1673_bits/blas3_matrix_rank_k_update.hpp: hermitian_matrix_rank_k_update", "include/experimental/__p1673_bits/blas3_matrix_rank_2k_update.hpp: hermitian_matrix_rank_2k_update"]}
{"id": "C91", "title": "Error bounds hold whatever multiply-adds the compiler fuses", "statement": "C++ lets a compiler evaluate a*b+c with one rounding. Whatever additions it fuses with a preceding multiplication, at each place and each time differently, even across stores, every result of dot, of general, symmetric and triangular matrix-vector and matrix-matrix products, of their updating versions and of rank-1, -2, -k and -2k updates has the error bound of separately rounded operations: at most ((1+u)^E - 1) times the sum of the magnitudes with the same number E of roundings, plus the effect of at most one underflow per product; it is finite only if the inputs are, and is finite whenever they are and the bound stays below the overflow threshold. No cell outside the output changes.", "quantifier": "every IEEE binary format, all shapes, layouts, contents and triangles, every choice of fused operations", "why_tests_cant": "what is fused depends on compiler, flags and target; a test sees the choice of one build and one input, the bound is about all", "anchors": ["include/experimental/__p1673_bits/blas1_dot.hpp: dot", "include/experimental/__p1673_bits/blas2_matrix_vector_product.hpp: matrix_vector_product, symmetric_matrix_vector_product, triangular_matrix_vector_product", "include/experimental/__p1673_bits/blas2_matrix_rank_1_update.hpp: matrix_rank_1_update, symmetric_matrix_rank_1_update", "include/experimental/__p1673_bits/blas2_matrix_rank_2_update.hpp: symmetric_matrix_rank_2_update", "include/experimental/__p1673_bits/blas3_matrix_product.hpp: matrix_product, symmetric_matrix_product, triangular_matrix_product", "include/experimental/__p1673_bits/blas3_matrix_rank_k_update.hpp: symmetric_matrix_rank_k_update", "include/experimental/__p1673_bits/blas3_matrix_rank_2k_update.hpp: symmetric_matrix_rank_2k_update"]}
{"id": "C92", "title": "Element addresses are exact in the index type", "statement": "An mdspan converts the indices it is given to its index type and computes the offset of the element in that type, with integer promotion, modular unsigned arithmetic and undefined signed overflow. Whenever the index type can represent the extents, the strides and the required span size, every element that an algorithm reads or writes has a defined offset and it is the right one, for column-major, row-major, strided, padded and transposed views. Every inline algorithm, with loop counters of the common type as well, has exactly the outcome, value and final memory of the algorithm with unbounded numbers. transposed() of such a view is such a view.", "quantifier": "all index types of up to 64 bits, each argument its own, all extents, strides and layouts that are not user-defined", "why_tests_cant": "tests use small extents and one or two index types; overflow of a partial result only shows for extents near the limit of a type", "anchors": ["include/experimental/__p1673_bits/transposed.hpp: layout_transpose::mapping::operator(), transposed", "include/experimental/__p1673_bits/blas1_dot.hpp: dot", "include/experimental/__p1673_bits/blas2_matrix_vector_product.hpp: matrix_vector_product", "include/experimental/__p1673_bits/blas3_matrix_product.hpp: matrix_product", "include/experimental/__p1673_bits/scaled.hpp: scaled_accessor::access", "include/experimental/__p1673_bits/conjugated.hpp: conjugated_accessor::access"]}
{"id": "C93", "title": "Equivalent calls give the same result bit for bit", "statement": "Ways of writing the same computation with the library leave exactly the same memory, in any arithmetic (in particular in floating point, where reordering would show). matrix_vector_product is one dot per row; the updating forms are a copy followed by the in-place update; matrix_product, symmetric, Hermitian and triangular products are one matrix-vector product per column (for an upper triangle with implicit unit diagonal only up to the order of the terms, which is excluded); an updating matrix_product, a rank-k and a rank-2k update are sequences of rank-1 and rank-2 updates with the columns; symmetric and Hermitian products that are told either triangle of a fully stored matrix equal the general product; a rank-k update writes the triangle of the general product with the transpose. Where products of elements commute (as in IEEE arithmetic) a call with all operands transposed and exchanged equals the original: products, symmetric products, and right solves as left solves or as one vector solve per row. The 1-norm of the transpose is the infinity norm, and both are maxima of vector_abs_sum over columns or rows.", "quantifier": "all element types, memories, extents, layouts and accessors in the stated aliasing conditions", "why_tests_cant": "tests compare with a tolerance or on exactly representable numbers; equality of all bits for all inputs depends on the order of the operations in both algorithms", "anchors": ["include/experimental/__p1673_bits/blas1_dot.hpp: dot", "include/experimental/__p1673_bits/blas2_matrix_vector_product.hpp: matrix_vector_product, symmetric_matrix_vector_product, hermitian_matrix_vector_product, triangular_matrix_vector_product", "include/experimental/__p1673_bits/blas2_matrix_rank_1_update.hpp: matrix_rank_1_update, symmetric_matrix_rank_1_update", "include/experimental/__p1673_bits/blas3_matrix_product.hpp: matrix_product, symmetric_matrix_product, hermitian_matrix_product, triangular_matrix_product", "include/experimental/__p1673_bits/blas3_matrix_rank_k_update.hpp: symmetric_matrix_rank_k_update", "include/experimental/__p1673_bits/blas3_matrix_rank_2k_update.hpp: symmetric_matrix_rank_2k_update", "include/experimental/__p1673_bits/blas3_triangular_matrix_matrix_solve.hpp: triangular_matrix_matrix_right_solve", "include/experimental/__p1673_bits/blas1_matrix_inf_norm.hpp: matrix_inf_norm", "include/experimental/__p1673_bits/blas1_matrix_one_norm.hpp: matrix_one_norm"]}
{"id": "C94", "title": "Signs and payloads of NaNs in the data are irrelevant", "statement": "Floating-point numbers carry a sign and a payload in their NaNs, and implementations differ in what they put there. Whatever the operations of the element type choose, two runs of an algorithm on data that agree except for the bits of NaNs take the same course: the same outcome, equal numbers wherever a result is not a NaN, and NaNs in the same places. So no comparison, branch or index found (norms, scaled sums of squares, rotations, solves, sequential or parallel) can depend on those bits, and everything proved for IEEE arithmetic with a single NaN holds for numbers with payloads.", "quantifier": "all binary formats, all (possibly different) choices of the bits of NaN results, real and complex elements, all memories, shapes, layouts and schedules", "why_tests_cant": "tests run on one platform's NaN rules and with one quiet NaN; the claim is about all choices of bits for all inputs", "anchors": ["include/experimental/__p1673_bits/blas1_dot.hpp: dot", "include/experimental/__p1673_bits/blas1_vector_sum_of_squares.hpp: vector_sum_of_squares", "include/experimental/__p1673_bits/blas1_vector_norm2.hpp: vector_two_norm", "include/experimental/__p1673_bits/blas1_givens.hpp: setup_givens_rotation", "include/experimental/__p1673_bits/blas2_matrix_vector_product.hpp: matrix_vector_product", "include/experimental/__p1673_bits/blas2_matrix_vector_solve.hpp: triangular_matrix_vector_solve", "include/experimental/__p1673_bits/blas3_matrix_product.hpp: matrix_product", "include/experimental/__p1673_bits/abs_if_needed.hpp: abs_if_needed"]}
{"id": "C95", "title": "Rounded norms keep the order properties of norms", "statement": "In floating point, with all roundings and overflows: vector_abs_sum, vector_two_norm, matrix_inf_norm and matrix_one_norm, started from a nonnegative number, return a number that is at least the start value and at least the magnitude of every element, and that is zero only if all of these are zero; dot(x, x) is never negative. Replacing elements by elements of larger magnitude never makes vector_abs_sum, matrix_inf_norm or matrix_one_norm smaller; it can make vector_two_norm smaller by a rounding error. Multiplying all elements by a power of two multiplies the result by exactly that power, unless it leaves the range of the format. The norms see only the magnitudes: changing signs of elements leaves every bit of the result as it is.", "quantifier": "all binary formats, all vectors and matrices without NaN (finite for the 2-norm, of a length whose scaled sum of squares cannot overflow; a normal element for its scaling), all start values as stated; the last sentence for every arithmetic and all elements including NaN", "why_tests_cant": "rounding errors could break each of these for rare inputs; tests sample a few vectors and compare with a tolerance that hides it", "anchors": ["include/experimental/__p1673_bits/blas1_vector_abs_sum.hpp: vector_abs_sum", "include/experimental/__p1673_bits/blas1_vector_sum_of_squares.hpp: vector_sum_of_squares", "include/experimental/__p1673_bits/blas1_vector_norm2.hpp: vector_two_norm", "include/experimental/__p1673_bits/blas1_matrix_frob_norm.hpp: matrix_frob_norm", "include/experimental/__p1673_bits/blas1_matrix_inf_norm.hpp: matrix_inf_norm", "include/experimental/__p1673_bits/blas1_matrix_one_norm.hpp: matrix_one_norm", "include/experimental/__p1673_bits/blas1_dot.hpp: dot"]}
{"id": "C96", "title": "Which elements are accessed depends on shapes only", "statement": "Which elements an algorithm loads and stores, and in which order, is determined by the views it is given: not by the values of the elements, the scaling factors or the element type. In particular zeros are never skipped, and whether a call returns or fails does not depend on the values. Two exceptions are exact: vector_sum_of_squares and vector_two_norm load an element a second time unless it is zero, and vector_idx_abs_max of an arithmetic type loads an element a second time when it exceeds all before it. In the Kokkos back end the regions launched and the accesses of each iteration depend on shapes only, without exception.", "quantifier": "all element types, all views, all contents of memory; for parallel regions all values that the loads of an iteration may return", "why_tests_cant": "tests observe results, not accesses, and cannot exclude a shortcut for special values", "anchors": ["include/experimental/__p1673_bits/blas1_vector_idx_abs_max.hpp: vector_idx_abs_max", "include/experimental/__p1673_bits/blas1_vector_sum_of_squares.hpp: vector_sum_of_squares", "include/experimental/__p1673_bits/blas1_dot.hpp: dot", "include/experimental/__p1673_bits/blas2_matrix_vector_product.hpp: matrix_vector_product, symmetric_matrix_vector_product, hermitian_matrix_vector_product, triangular_matrix_vector_product", "include/experimental/__p1673_bits/blas2_matrix_vector_solve.hpp: triangular_matrix_vector_solve", "include/experimental/__p1673_bits/blas2_matrix_rank_1_update.hpp: matrix_rank_1_update", "include/experimental/__p1673_bits/blas3_matrix_product.hpp: matrix_product, triangular_matrix_product, symmetric_matrix_product, hermitian_matrix_product", "include/experimental/__p1673_bits/blas3_matrix_rank_k_update.hpp: symmetric_matrix_rank_k_update", "include/experimental/__p1673_bits/blas3_matrix_rank_2k_update.hpp: hermitian_matrix_rank_2k_update", "include/experimental/__p1673_bits/blas3_triangular_matrix_matrix_solve.hpp: triangular_matrix_matrix_left_solve, triangular_matrix_matrix_right_solve", "tpl-implementations/include/experimental/__p1673_bits/kokkos-kernels/blas3_matrix_product_kk.hpp: all products (likewise every algorithm of this directory)"]}
{"id": "C97", "title": "Number of loads and stores", "statement": "The number of loads and stores of each algorithm is an exact function of the extents. Examples: a matrix-vector product of an m x n matrix performs 3mn loads and mn + m stores, a matrix product of m x k by k x n performs 3mnk loads and mnk + mn stores, a triangular solve of order n performs n(n-1) + n loads (n more for an explicit diagonal) and n stores, a symmetric product 5n(n-1)/2 + 3n loads and n(n-1) + 2n stores; algorithms on a triangle touch only its n(n-1)/2 entries and, if explicit, its diagonal.", "quantifier": "all algorithms of the inline back end, all element types, all extents (square where required, representable in the index type), all contents of memory for which the call returns", "why_tests_cant": "tests do not count accesses; a quadratic algorithm turned cubic, or a result written twice, passes every value test", "anchors": ["include/experimental/__p1673_bits/blas1_vector_idx_abs_max.hpp: vector_idx_abs_max", "include/experimental/__p1673_bits/blas1_vector_sum_of_squares.hpp: vector_sum_of_squares", "include/experimental/__p1673_bits/blas1_dot.hpp: dot", "include/experimental/__p1673_bits/blas2_matrix_vector_product.hpp: matrix_vector_product, symmetric_matrix_vector_product, hermitian_matrix_vector_product, triangular_matrix_vector_product", "include/experimental/__p1673_bits/blas2_matrix_vector_solve.hpp: triangular_matrix_vector_solve", "include/experimental/__p1673_bits/blas2_matrix_rank_1_update.hpp: matrix_rank_1_update", "include/experimental/__p1673_bits/blas3_matrix_product.hpp: matrix_product, triangular_matrix_product, symmetric_matrix_product, hermitian_matrix_product", "include/experimental/__p1673_bits/blas3_matrix_rank_k_update.hpp: symmetric_matrix_rank_k_update", "include/experimental/__p1673_bits/blas3_matrix_rank_2k_update.hpp: hermitian_matrix_rank_2k_update", "include/experimental/__p1673_bits/blas3_triangular_matrix_matrix_solve.hpp: triangular_matrix_matrix_left_solve, triangular_matrix_matrix_right_solve"]}
{"id": "C98", "title": "Computing by blocks gives the same bits", "statement": "Cutting the operands into two parts and calling the algorithm on each part gives the same result as one call on the whole, bit for bit in any arithmetic. Vectors may be cut anywhere for copying, swapping, scaling, adding, rotating and, passing on the partial result, for dot, vector_abs_sum and vector_sum_of_squares; matrices by columns for copying, swapping, scaling, adding, left triangular, symmetric and Hermitian products and left solves, by rows for matrix products, rank-1 updates and right solves: here even failures and overlapping views behave alike. The summation index of matrix products and symmetric rank-k and rank-2k updates may be cut as well, the second call updating the result of the first. A lower triangular system may be solved block by block: first block, subtraction of its contribution by an updating product with the matrix scaled by -1, second block.", "quantifier": "all element types (for blockwise solution: those where adding a product with -a is subtracting the product with a, as in IEEE-754 and every ring), all extents, all positions of the cut, all views", "why_tests_cant": "tests use a few sizes and compare with tolerances; agreement to the last bit for every cut needs the order of all operations", "anchors": ["include/experimental/__p1673_bits/blas1_linalg_copy.hpp: copy", "include/experimental/__p1673_bits/blas1_linalg_swap.hpp: swap_elements", "include/experimental/__p1673_bits/blas1_scale.hpp: scale", "include/experimental/__p1673_bits/blas1_linalg_add.hpp: add", "include/experimental/__p1673_bits/blas1_givens.hpp: apply_givens_rotation", "include/experimental/__p1673_bits/blas1_dot.hpp: dot", "include/experimental/__p1673_bits/blas1_vector_abs_sum.hpp: vector_abs_sum", "include/experimental/__p1673_bits/blas1_vector_sum_of_squares.hpp: vector_sum_of_squares", "include/experimental/__p1673_bits/blas2_matrix_vector_product.hpp: matrix_vector_product", "include/experimental/__p1673_bits/blas2_matrix_rank_1_update.hpp: matrix_rank_1_update", "include/experimental/__p1673_bits/blas2_matrix_vector_solve.hpp: triangular_matrix_vector_solve", "include/experimental/__p1673_bits/blas3_matrix_product.hpp: matrix_product, triangular_matrix_product, triangular_matrix_left_product, symmetric_matrix_product, hermitian_matrix_product", "include/experimental/__p1673_bits/blas3_matrix_rank_k_update.hpp: symmetric_matrix_rank_k_update", "include/experimental/__p1673_bits/blas3_matrix_rank_2k_update.hpp: symmetric_matrix_rank_2k_update", "include/experimental/__p1673_bits/blas3_triangular_matrix_matrix_solve.hpp: triangular_matrix_matrix_left_solve, triangular_matrix_matrix_right_solve"]}
{"id": "C99", "title": "Triangular solves have a small residual whatever is fused", "statement": "If the compiler fuses some of the multiplications and subtractions of a triangular solve into single operations, chosen freely at each place, the computed solution still has the componentwise small residual of C61: for every finite result the right-hand side is finite, no diagonal element is zero, and |T x - b| is at most gamma_n |T||x| plus underflow terms. Contraction chosen place by place also obeys every error bound of C91. The choices are as stated: if every addition takes the product on its right unrounded, dot is exactly a chain of fused multiply-adds; if none does, exactly the separately rounded products and sums.", "quantifier": "all binary floating-point formats, all ways of choosing at each addition and subtraction whether a product is fused, all orders, triangles, diagonals, layouts, accessors of the matrix; vector solves and left and right matrix solves, in place or not; right-hand sides that are stored numbers", "why_tests_cant": "a test runs one compiler with one set of flags; the bound is over all choices and all inputs", "anchors": ["include/experimental/__p1673_bits/blas2_matrix_vector_solve.hpp: triangular_matrix_vector_solve", "include/experimental/__p1673_bits/blas3_triangular_matrix_matrix_solve.hpp: triangular_matrix_matrix_left_solve, triangular_matrix_matrix_right_solve", "include/experimental/__p1673_bits/blas1_dot.hpp: dot"]}
{"id": "C100", "title": "Hermitian operations are those of matrix algebra with the conjugate transpose", "statement": "Over any commutative ring with a conjugation (a ring automorphism that is its own inverse), the operations on matrices that hold M, N, ... compute the textbook expressions: conjugated, conjugate_transposed views hold conj(M) and M^H; dotc gives x^H y + init; gerc adds x y^H; products with a stored Hermitian triangle are products with the whole Hermitian matrix; her, her2, herk, her2k (with or without alpha) leave the triangle of M + alpha x x^H, M + x y^H + y x^H, C + alpha A A^H, C + A B^H + B A^H; triangular products and solves through the conjugate-transposed view are by T^H and its inverse. The two triangular solves with L and L^H give the solution of (L L^H) X = N; an herk update followed by a product is the product with the updated matrix; over an algebraically closed field with conjugation dotc(x, x) is nonnegative, and zero only for the zero vector.", "quantifier": "all commutative rings with conjugation (fields for dotc(x, x)), all extents, both triangles and diagonals, layouts and accessors; Hermitian updates of matrices that are Hermitian, solves with diagonal elements that divide", "why_tests_cant": "a test compares numbers of one rounded type for chosen inputs; the equations are between matrices of all sizes over all rings", "anchors": ["include/experimental/__p1673_bits/conjugated.hpp: conjugated", "include/experimental/__p1673_bits/conjugate_transposed.hpp: conjugate_transposed", "include/experimental/__p1673_bits/blas1_dot.hpp: dotc", "include/experimental/__p1673_bits/blas2_matrix_rank_1_update.hpp: matrix_rank_1_update_c, hermitian_matrix_rank_1_update", "include/experimental/__p1673_bits/blas2_matrix_rank_2_update.hpp: hermitian_matrix_rank_2_update", "include/experimental/__p1673_bits/blas2_matrix_vector_product.hpp: hermitian_matrix_vector_product", "include/experimental/__p1673_bits/blas3_matrix_product.hpp: hermitian_matrix_product", "include/experimental/__p1673_bits/blas3_matrix_rank_k_update.hpp: hermitian_matrix_rank_k_update", "include/experimental/__p1673_bits/blas3_matrix_rank_2k_update.hpp: hermitian_matrix_rank_2k_update", "include/experimental/__p1673_bits/blas3_triangular_matrix_matrix_solve.hpp: triangular_matrix_matrix_left_solve"]}
{"id": "C101", "title": "Complex products and updates stay accurate whatever is fused", "statement": "If the compiler fuses multiplications and additions of the real and imaginary parts of complex numbers into single operations, wherever it likes - inside complex products, and between the product of a real number (the diagonal of a Hermitian matrix) and an accumulation - the results of dot, dotc, general, symmetric, Hermitian and (out-of-place) triangular products and rank updates obey the same componentwise error bounds as C71, are finite exactly under the same conditions, and nothing but the output changes. A product that comes out as NaN may be replaced by any non-finite number (recovery of infinities).", "quantifier": "all binary floating-point formats, all ways of choosing at each place whether a product is fused and how NaN products are recovered, all sizes, layouts, triangles, contents", "why_tests_cant": "a test runs one compiler with one set of flags; the bound is over all choices and all inputs", "anchors": ["include/experimental/__p1673_bits/blas1_dot.hpp: dot, dotc", "include/experimental/__p1673_bits/blas2_matrix_vector_product.hpp: matrix_vector_product, symmetric_matrix_vector_product, hermitian_matrix_vector_product", "include/experimental/__p1673_bits/blas2_matrix_rank_1_update.hpp: matrix_rank_1_update, matrix_rank_1_update_c, hermitian_matrix_rank_1_update", "include/experimental/__p1673_bits/blas2_matrix_rank_2_update.hpp: hermitian_matrix_rank_2_update", "include/experimental/__p1673_bits/blas3_matrix_product.hpp: matrix_product, hermitian_matrix_product, symmetric_matrix_product", "include/experimental/__p1673_bits/blas3_matrix_rank_k_update.hpp: hermitian_matrix_rank_k_update", "include/experimental/__p1673_bits/blas3_matrix_rank_2k_update.hpp: hermitian_matrix_rank_2k_update", "include/experimental/__p1673_bits/blas2_matrix_vector_product.hpp: triangular_matrix_vector_product"]}
{"id": "C102", "title": "Rounded products and updates are monotone: bounds on the data bound the result", "statement": "Take two calls of the same operation on operands of the same shapes, the second on data that bound the magnitudes of the data of the first. In floating point, with all roundings, wherever the result of the second call is finite the result of the first is finite, too, and its magnitude is at most that of the second; so a call on magnitudes that does not overflow shows that no call on smaller data overflows or gives NaN. If the data of the first call are nonnegative then so are its results. This holds for scaling, sums, dot products, general, symmetric, Hermitian and triangular products (overwriting, updating, in place) and rank updates.", "quantifier": "all binary floating-point formats (and every element type with a relation that sums and products preserve), all sizes, layouts, triangles, contents, possibly different layouts in the two calls", "why_tests_cant": "rounding could break monotonicity for rare operands; tests compare with a tolerance and cannot try all pairs of data", "anchors": ["include/experimental/__p1673_bits/blas1_scale.hpp: scale", "include/experimental/__p1673_bits/blas1_linalg_add.hpp: add", "include/experimental/__p1673_bits/blas1_dot.hpp: dot, dotc", "include/experimental/__p1673_bits/blas2_matrix_vector_product.hpp", "include/experimental/__p1673_bits/blas2_matrix_rank_1_update.hpp", "include/experimental/__p1673_bits/blas2_matrix_rank_2_update.hpp", "include/experimental/__p1673_bits/blas3_matrix_product.hpp", "include/experimental/__p1673_bits/blas3_matrix_rank_k_update.hpp", "include/experimental/__p1673_bits/blas3_matrix_rank_2k_update.hpp"]}
{"id": "C103", "title": "Results follow the signs and units of the operands exactly, rounding included", "statement": "Take two calls of the same operation on operands of the same shapes whose data differ by fixed factors. In floating point, if the data of the second call are those of the first with signs changed per operand, then its results are those of the first with the product of the signs, bit for bit except possibly for the signs of zeros, also for infinities and NaN: negating a matrix or a vector negates the product; in rank updates of a vector or matrix with itself the sign cancels; a solve with matrix and right-hand side negated has the same solution. In arithmetic with a fixed number of digits and unlimited exponents, scaling operands by powers of two scales all results by the power of two expected, with no change in rounding. This holds for scaling, sums, dot products, general, symmetric, Hermitian and triangular products (overwriting, updating, in place), rank updates, and triangular solves with one or many right-hand sides.", "quantifier": "all binary floating-point formats (for signs), all numbers of digits (for powers of two), and every element type with relations that the arithmetic preserves; all sizes, layouts, triangles, contents, possibly different layouts in the two calls", "why_tests_cant": "an operation that treated signs or magnitudes unevenly, as by comparing with a threshold or rescaling, would be within tolerance for all test data; exactness for all data needs a proof over all roundings", "anchors": ["include/experimental/__p1673_bits/blas1_scale.hpp: scale", "include/experimental/__p1673_bits/blas1_linalg_add.hpp: add", "include/experimental/__p1673_bits/blas1_dot.hpp: dot, dotc", "include/experimental/__p1673_bits/blas2_matrix_vector_product.hpp", "include/experimental/__p1673_bits/blas2_matrix_vector_solve.hpp", "include/experimental/__p1673_bits/blas2_matrix_rank_1_update.hpp", "include/experimental/__p1673_bits/blas2_matrix_rank_2_update.hpp", "include/experimental/__p1673_bits/blas3_matrix_product.hpp", "include/experimental/__p1673_bits/blas3_matrix_rank_k_update.hpp", "include/experimental/__p1673_bits/blas3_matrix_rank_2k_update.hpp", "include/experimental/__p1673_bits/blas3_triangular_matrix_matrix_solve.hpp"]}
{"id": "C104", "title": "An element of a result depends on its own row and column only, not on its place or on the rest of the data", "statement": "Take two calls of the same operation, on possibly different numbers of rows and columns (only the lengths of the sums must agree), and an element of each result. If the data that the two elements are defined by agree - the row of the first factor and the column of the second, the element updated - then the two elements are equal bit for bit, wherever they are in the results, whatever the remaining data (NaN or infinity, say) and whatever the layouts. So computing many rows or columns in one call gives the same as computing them in calls of their own, or in another order, and bad data spread no further than the definition of the operation requires. For symmetric, Hermitian and triangular matrices the row (or column) has to be the same one; only its stored elements matter. Element i of the solution of a triangular system depends on the equations up to i in the order of substitution only. This holds for scaling, sums, general, symmetric, Hermitian and triangular products (overwriting, updating, in place), rank updates and triangular solves with one or many right-hand sides.", "quantifier": "all element types with any operations (no algebraic laws), all sizes, layouts, triangles, contents", "why_tests_cant": "tests compare whole results with expected ones for a few sizes; that blocking, vectorisation or position never changes the order of operations of an element is a statement about all pairs of calls", "anchors": ["include/experimental/__p1673_bits/blas1_scale.hpp: scale", "include/experimental/__p1673_bits/blas1_linalg_add.hpp: add", "include/experimental/__p1673_bits/blas2_matrix_vector_product.hpp", "include/experimental/__p1673_bits/blas2_matrix_vector_solve.hpp", "include/experimental/__p1673_bits/blas2_matrix_rank_1_update.hpp", "include/experimental/__p1673_bits/blas2_matrix_rank_2_update.hpp", "include/experimental/__p1673_bits/blas3_matrix_product.hpp", "include/experimental/__p1673_bits/blas3_matrix_rank_k_update.hpp", "include/experimental/__p1673_bits/blas3_matrix_rank_2k_update.hpp", "include/experimental/__p1673_bits/blas3_triangular_matrix_matrix_solve.hpp"]}
{"id": "C105", "title": "On integer data floating-point results are exact", "statement": "Let the elements be binary floating-point numbers with p digits whose values are integers. Wherever the sum of the magnitudes of the terms of a result (the products, and the old element in updates) is at most 2^p, that result is finite and is exactly the integer result, without any rounding error. This holds for scaling, sums, dot products, general, symmetric, Hermitian and triangular products (overwriting, updating, in place), and rank-1, rank-2, rank-k and rank-2k updates, on every row or element that meets the bound, whatever the other elements of the result. Integers up to 2^p in magnitude, their sums and their products within that bound are themselves exact; 2^53 + 1 shows that the bound cannot be dropped.", "quantifier": "all binary floating-point formats, all sizes, layouts, triangles, integer contents; each element of the result that meets the bound", "why_tests_cant": "tests with small integers compare results exactly and rely on this; that it holds for all integer data within the bound, at all sizes, is not something samples can show", "anchors": ["include/experimental/__p1673_bits/blas1_scale.hpp: scale", "include/experimental/__p1673_bits/blas1_linalg_add.hpp: add", "include/experimental/__p1673_bits/blas1_dot.hpp: dot, dotc", "include/experimental/__p1673_bits/blas2_matrix_vector_product.hpp", "include/experimental/__p1673_bits/blas2_matrix_rank_1_update.hpp", "include/experimental/__p1673_bits/blas2_matrix_rank_2_update.hpp", "include/experimental/__p1673_bits/blas3_matrix_product.hpp", "include/experimental/__p1673_bits/blas3_matrix_rank_k_update.hpp", "include/experimental/__p1673_bits/blas3_matrix_rank_2k_update.hpp"]}
{"id": "C106", "title": "On integer data results are exact whatever multiply-adds are fused", "statement": "The exactness of C105 does not depend on which multiplications and additions the compiler fuses into single operations, chosen freely at each place, even across stores: with integer elements, wherever the sum of the magnitudes of the terms of a result is at most 2^p, the only number that result can be is the exact integer. So contraction, which in general changes results, changes nothing on such data. A fused multiply-add of integers whose result is at most 2^p in magnitude is exact even where its product alone is not a floating-point number.", "quantifier": "all binary floating-point formats, all choices of fused operations, all sizes, layouts, triangles, integer contents; each element of the result that meets the bound; the operations of C105", "why_tests_cant": "a test runs one compiler with one set of flags on sample data; the claim is over all choices of fusing and all integer data within the bound", "anchors": ["include/experimental/__p1673_bits/blas1_scale.hpp: scale", "include/experimental/__p1673_bits/blas1_linalg_add.hpp: add", "include/experimental/__p1673_bits/blas1_dot.hpp: dot, dotc", "include/experimental/__p1673_bits/blas2_matrix_vector_product.hpp", "include/experimental/__p1673_bits/blas2_matrix_rank_1_update.hpp", "include/experimental/__p1673_bits/blas2_matrix_rank_2_update.hpp", "include/experimental/__p1673_bits/blas3_matrix_product.hpp", "include/experimental/__p1673_bits/blas3_matrix_rank_k_update.hpp", "include/experimental/__p1673_bits/blas3_matrix_rank_2k_update.hpp"]}
{"id": "C107", "title": "Triangular systems of integers with an integer solution are solved exactly", "statement": "If a triangular matrix and right-hand side of integers have an integer solution, no stored diagonal element is zero, and in every row the magnitude of the right-hand side plus those of the terms t_ik x_k is at most 2^p, then triangular_matrix_vector_solve and triangular_matrix_matrix_left_solve and _right_solve return exactly that solution in p-digit floating point, although they divide; with many right-hand sides this holds for each column (row for right solves) that meets the bound, whatever the others. It holds as well whatever multiply-subtractions the compiler fuses.", "quantifier": "all binary floating-point formats, all orders, triangles, diagonals, layouts, integer contents; all choices of fused operations", "why_tests_cant": "tests solve a few small integer systems and compare exactly; that this is right for all such systems, sizes and choices of fusing needs a proof", "anchors": ["include/experimental/__p1673_bits/blas2_matrix_vector_solve.hpp: triangular_matrix_vector_solve", "include/experimental/__p1673_bits/blas3_triangular_matrix_matrix_solve.hpp: triangular_matrix_matrix_left_solve, triangular_matrix_matrix_right_solve"]}
{"id": "C108", "title": "On complex integer data complex floating-point results are exact", "statement": "Let the elements be complex numbers over a binary floating-point format with p digits whose real and imaginary parts are integers. With |re| + |im| as the size of a number, wherever the sum over the terms of a result of the products of the sizes of their factors, plus the size of the old element in updates, is at most 2^p, both parts of that result are exactly those of the result in complex integer arithmetic, with conjugates where the operation conjugates and Hermitian matrices completed from their triangle with real diagonal. This holds for scaling, sums, dot, dotc, general, symmetric and Hermitian matrix-vector and matrix-matrix products (overwriting and updating; Hermitian matrix-matrix products from the left), and rank-1, rank-2, rank-k and rank-2k updates, symmetric and Hermitian; what the C++ library does to recover from NaN in products plays no part.", "quantifier": "all binary floating-point formats, all sizes, layouts, triangles, complex integer contents; each element of the result that meets the bound; every way of recovering from NaN products", "why_tests_cant": "tests compare a few small complex integer results exactly; that every result within the bound is exact, conjugation included, needs a proof", "anchors": ["include/experimental/__p1673_bits/blas1_scale.hpp: scale", "include/experimental/__p1673_bits/blas1_linalg_add.hpp: add", "include/experimental/__p1673_bits/blas1_dot.hpp: dot, dotc", "include/experimental/__p1673_bits/blas2_matrix_vector_product.hpp", "include/experimental/__p1673_bits/blas2_matrix_rank_1_update.hpp", "include/experimental/__p1673_bits/blas2_matrix_rank_2_update.hpp", "include/experimental/__p1673_bits/blas3_matrix_product.hpp", "include/experimental/__p1673_bits/blas3_matrix_rank_k_update.hpp", "include/experimental/__p1673_bits/blas3_matrix_rank_2k_update.hpp"]}
{"id": "C109", "title": "On integer data sums of magnitudes and the 1- and infinity-norms are exact", "statement": "Let the magnitudes of the elements and the initial value be integers held in a binary floating-point format with p digits. If the magnitude of the initial value plus the sum of the magnitudes is at most 2^p, vector_abs_sum returns exactly the initial value plus the sum of the magnitudes; for complex elements with integer parts, the same with |Re| + |Im| for the magnitude. If this bound holds for every row, matrix_inf_norm returns exactly the initial value plus the largest row sum of magnitudes; if for every column, matrix_one_norm returns exactly the initial value plus the largest column sum. For a matrix without elements both return the initial value.", "quantifier": "all binary floating-point formats, all sizes, layouts, integer magnitudes and initial values within the bound", "why_tests_cant": "tests check a few small matrices of integers; that no integer data within the bound loses anything to rounding, at any size, needs a proof", "anchors": ["include/experimental/__p1673_bits/blas1_vector_abs_sum.hpp: vector_abs_sum", "include/experimental/__p1673_bits/blas1_matrix_inf_norm.hpp: matrix_inf_norm", "include/experimental/__p1673_bits/blas1_matrix_one_norm.hpp: matrix_one_norm"]}

# Formal model of stdBLAS (P1673 reference implementation) in Rocq

Source modelled: `/repo` (kokkos/stdBLAS at the pinned commit), read as text only, never built or run.
Paths below are relative to `/repo/include/experimental/__p1673_bits/` (inline algorithms) and, with the
prefix `kk/`, to `/repo/tpl-implementations/include/experimental/__p1673_bits/kokkos-kernels/`.

## 1. How the code is modelled

* **Scalars** (`Scalar.v`) - a record `ops` of *operations without laws* (`zero, one, add, sub, mul, div, conj, re`).
  Algorithms are defined over any `ops`, so theorems about the order of evaluation hold for floating point as well.
  Algebraic laws are explicit hypotheses of the theorems that need them (`add_laws`, non-commutative `ring_laws`,
  `div_laws`, `mul_commutes`, `conj_laws` in `Spec.v`); each is inhabited by an instance in `Inst.v`.
  `conj` and `re` stand for `conj_if_needed` / `real_if_needed`.
  Simplification: all views of one call share one carrier type; different element types in one call are modelled by
  `Mixed.v` (C66), `Proxy.v` (C77), `Typed.v` (C80) and `TypedProd.v` (C81).
* **Memory and programs** (`Mem.v`) - memory is `nat -> option T`; `None` is an unallocated cell.  Programs are a free
  monad: `Ret`, `Get addr k`, `Put addr v k`, `Fail err`; `run` gives `Ok a m'` or `Err e m'`.  Undefined behaviour and
  failure are distinct outcomes: index outside the extents or access to an unallocated cell (`OutOfBounds`), assignment
  through a read-only accessor, failed `assert`, thrown exception, loop out of fuel.
* **Views** (`View.v`) - vectors `(base, extent, offset function, accessor)`, matrices `(base, extents, layout, accessor)`.
  Layouts: left, right, strided, padded, `layout_transpose`, and arbitrary user layouts.  Accessors: default, conjugated,
  scaled, nested in any way.  Every element access checks the index against the extents (mdspan's precondition)
  and the cell for being allocated.
* **Algorithms** (`Blas1.v`, `Blas2.v`, `Blas3.v`, `Norm.v`, `Givens.v`) - function by function, loops in source order, each
  definition with file and lines.  Where the source does index arithmetic that can wrap or change signedness (triangular
  solves and products) the index type is modelled (`Idx.v`: width, signedness, promotion, conversion to `ptrdiff_t`).
* **Norms and Givens set-up** - over a record of real operations without laws; instantiated with Coq's reals
  (exact arithmetic), with Flocq's IEEE-754 formats (`Ieee.v`) for termination and NaN questions.
* **Kokkos back end** - `Par.v`: a region (`parallel_for` + fence) is a list of tasks executed in *any* interleaving of single
  loads and stores; a race, a stuck task and a wrong final memory are all excluded by `region_ok`.  `Red.v`:
  `parallel_reduce` as arbitrary grouping, order and join tree.  `KK.v`, `KKNorm.v`: the algorithms of `kk/` that run their
  own loops, including their extent checks and `mdspan_to_view`.
* **Execution policies** (`Dispatch.v`) - all policy overloads, transcribed as data (which customisation is
  tested, which function is called) and an interpreter for the dispatch; the rules of C++ overload
  resolution assumed are listed at the top of the file.

## 2. How properties are stated and proved

`Spec.v` (and `SpecK.v`, `SpecR.v`, `SpecG.v`, `SpecRed.v`, `SpecDispatch.v`) contain the specification vocabulary and depend
only on data types (memory, views), not on the model's algorithms: `vec_holds m x f` / `mat_holds m A f` (the view reads as
the mathematical vector/matrix `f`), restricted versions for triangles, `changes_only`, left-to-right sums, allocation,
disjointness.  An algorithm theorem says: for all views, shapes and contents with conforming extents, writable output and
non-overlap (or exact aliasing where allowed), the run ends in `Ok` - no out-of-range access - in a memory where the output
view holds the mathematical result and every other cell is unchanged.

Loops are proved with a total-correctness weakest-precondition calculus (`Wp.v`, `Loops.v`) and loop invariants (`Pf*.v`).
Parallel code: a general theorem (`PfPar.v`) says that tasks with non-interfering footprints produce, under every
interleaving and without races, the memory of the sequential execution; each kernel is then proved sequentially.  Property
theorems are in `Prop*.v`, each closed by one lemma, followed by `Print Assumptions`; the `Example`s next to
them are concrete non-trivial cases that meet the hypotheses.

## 3. Faults found in the source

Each is proved as a `_refuted` theorem where a property is named.

1. `matrix_frob_norm` uses scale/|a| in both branches (blas1_matrix_frob_norm.hpp:112-120): too large unless magnitudes
   do not decrease [C15].
2. Complex `setup_givens_rotation`: the loop `for (i = 1; i >= -count; --i)` (blas1_givens.hpp:366) does not run when the
   arguments were scaled up more than once: `r` is wrong for tiny arguments [C18].
3. `setup_givens_rotation` never returns for an infinite argument [C19].
4. Upper solves with a 32-bit unsigned size type and zero rows start at index 2^32-1 [C28].
5. `triangular_matrix_matrix_right_solve`, lower, with 8/16/32-bit unsigned index types and a large extent does nothing [C43].
6. `transposed(transposed(A))` does not compile for generic layouts (and padded ones without the macro) [C03, C04].
7. Updating `symmetric_matrix_product` / `hermitian_matrix_product` are `assert(false)` stubs [C38].
8. Overwriting right `hermitian_matrix_product` uses the stored, possibly non-real, diagonal [C37]; the Kokkos left/right
   products use conj(A(i,i)) [C56], the Kokkos hemv A(i,i) [C50].
9. Hermitian updates with a complex alpha leave a non-real diagonal (a precondition in P1673) [C31, C40]; the Kokkos ones
   keep the imaginary part of the stored diagonal [C47].
10. Dispatch: a custom overwriting `matrix_product` is never chosen; one-sided products test one name and call another;
    `triangular_matrix_matrix_solve` with a side tests the right solve; rank-1/rank-k overloads reject an lvalue
    standard policy; self-mapped and cyclic policy maps never settle [C44].
11. Kokkos updating gemv adds y once per column [C48].
12. Kokkos `matrix_one_norm` reads out of range for a matrix without rows; `vector_norm2` and `matrix_frob_norm` treat init
    differently from the inline versions; `vector_sum_of_squares` scales init wrongly; `vector_abs_sum` uses the complex
    modulus; `matrix_frob_norm` of a zero matrix is NaN [C52].
13. Kokkos updating Hermitian right product does not check E [C51]; Kokkos copy does not check extents [C57].
14. Kokkos views of rank-1 mdspans ignore strides; views of `layout_transpose` drop the transposition [C55].
15. `vector_two_norm` of a vector with two infinite elements is NaN (inf/inf in the rescaling) [C63].
16. `matrix_inf_norm` and `matrix_one_norm` use `std::max(sum, result)`: a NaN sum replaces the result and is then itself
    replaced by the next sum; rows with sums 5, NaN, 1 give 1 [C63].
17. Kokkos `vector_norm2` does not scale: (2^600) gives infinity, (2^-600) gives 0 [C64].
18. `dot` of float vectors with a double init multiplies in float: 2^100 * 2^100 gives infinity, (1+2^-12)^2 loses 2^-24,
    though both are doubles [C66].
19. `vector_two_norm` and `matrix_frob_norm` with integer elements divide in the integer type: (3, 4) gives 4 [C67].
20. Kokkos `matrix_vector_product` with a `layout_transpose` matrix and `matrix_product` with a `layout_transpose` result drop the
    transposition; `matrix_product` with both operands `layout_transpose` is ambiguous [C68].
21. Kokkos updating `matrix_vector_product` with a scaled or conjugated y calls `scale_factor()`, which no accessor has
    (blas2_gemv_kk.hpp:243; the member of `scaled_accessor` is `scaling_factor`) [C68].
22. Kokkos triangular products pass "U" for the lower triangle (blas3_matrix_product_kk.hpp:232), solves pass "L"
    (blas3_triangular_matrix_matrix_solve.hpp:67): one of them uses the wrong triangle [C69].
23. `matrix_vector_product` and `matrix_product` make no compile-time extent check: mismatched static extents compile [C72].
24. `layout_blas_general` multiplies the whole packed offset by the leading dimension (layout_blas_general.hpp:138-142):
    neither LDA nor `transposed()` has its BLAS meaning; its `is_unique()` is true even for LDA = 0 [C73].
25. Kokkos `matrix_one_norm` of a `layout_transpose` matrix returns its infinity norm and vice versa [C52].
26. `scaled_scalar` passes ReferenceValue as the value type of its base class (proxy_reference.hpp:227-230): with a factor of
    a wider type (double factor, int element) conversion and all operators truncate the product to the element's type,
    although its own `value_type` is the wider one; `operator==` is affected too [C77]. `scaled()` is not affected [C01].
27. The inline `copy`, `swap_elements`, `scale` and `add` accept rank-0 mdspans (they check rank <= 2) and silently do nothing:
    `if constexpr` has branches for ranks 1 and 2 only (blas1_linalg_copy.hpp:147-152, blas1_linalg_swap.hpp:154-159,
    blas1_scale.hpp:118-123, blas1_linalg_add.hpp:192-197) [C78].
28. The inline `triangular_matrix_matrix_solve` with a side drops the policy and calls the one-sided solve without one
    (blas3_triangular_matrix_matrix_solve.hpp:438, 441): a request for the inline policy, or for a policy without custom
    implementation, runs the implementation of the default policy's mapping, e.g. Kokkos [C79].
29. `trsm_lower_triangular_left_side` accumulates in `ElementType_X` (blas3_triangular_matrix_matrix_solve.hpp:120); the other
    five solves use the type of B - A * X.  With float X and double A, B all digits of an unknown can be lost [C80].
30. Products accumulate in the element type of the output and `dot` in the type of init: with narrower outputs every partial
    sum is rounded or truncated (`dot` of (1/2,1/2) and (1,1) with init 0 is 0).  The standard does not promise more [C81].
31. Kokkos `triangular_matrix_left/right_product` (implicit unit diagonal) launch one region per row or column and never
    fence; `add`, `scale`, `matrix_vector_product`, `matrix_product`, triangular products and solves end with an unfenced
    KokkosBlas call: on an asynchronous space the output may not be written yet when they return.  All others fence [C82].
32. `dot`, the products, `scale` and the rank-1 update multiply elements as they are: unsigned 16-bit elements are promoted to
    int, so 65535*65535 is undefined although the type wraps [C83].
33. The Kokkos overloads list `layout_blas_packed` in their constraints (`is_layout_blas_packed_v`), but `mdspan_to_view` has no
    `LayoutMapper` for it, so a call with a packed matrix is selected and then fails to compile.  The inline algorithms, unlike the
    Kokkos ones (`triangle_layout_match_v`), do not compare the triangle of the layout with the tag; for a Hermitian matrix a
    wrong tag silently gives the transpose [C89].

Observed but not modelled: `linalg_execpolicy_mapper.hpp` (pre-C++20 fallback of `remove_cvref_t`) names an undeclared
`policy`; the Kokkos overloads use `extents<ext...>` without a size type and name the 2-norm `vector_norm2` while the
dispatcher tests `vector_two_norm`;
`abs` of a proxy calls an unqualified `abs`, which for a double may be the C function for int; `vector_idx_abs_max`,
`vector_sum_of_squares`, `vector_two_norm` and the matrix norms call `abs`, not `abs_if_needed`, and so are ambiguous for
unsigned int and wider unsigned elements, which `vector_abs_sum` accepts; the trait of `vector_idx_abs_max` demands the
result type `extents::size_type`, so with a signed index type a customization with the function's own result type is ignored;
the updating Kokkos `symmetric_` and `triangular_matrix_vector_product` declare a local sum of `value_type` of y, which is
const for an mdspan of const elements; `matproduct_impl::runtime_error` is a non-inline function in a header; the Kokkos
rank-1 and `dot` overloads for conjugated arguments name `conjugated_accessor` with two template arguments (the class has one); the Kokkos
matrix-vector products discard the result of `static_extent_match`; KokkosBlas calls do not receive the execution space of the
policy.

## 4. Per property: what is modelled, how it is proved

Theorem names are in `MANIFEST.json`; a name ending in `_partial` proves part of the claim, `_refuted` refutes the
full claim for the faithful model with a concrete witness.

| id | status | modelled definitions | how proved / what is missing |
|----|--------|----------------------|------------------------------|
| C01 scaled() is a lazy read-only view | proved | `acc_read`, `scaled_v/m` | Equational, all layouts and accessors. |
| C02 conjugated() reads conjugates and is self-annihilating | proved | `conj_acc`, `conjugated_v/m` | Equational; both settings of the non-complex macro. |
| C03 transposed() swaps the indices for every layout | partial | `transposed_layout`, `transposed`, `off` | Case analysis on the layout; padded case by arithmetic. transposed() is proved for every layout. Transposing twice: proved wherever the second transposed() compiles; refuted for generic layouts and padded layouts without the macro, where transposed_layout<layout_transpose<N>> has no member mapping. |
| C04 conjugate_transposed() is the conjugate transpose | partial | `conjugate_transposed` | From C02 and C03. Single application proved for every layout and accessor; twice: as C03, proved where the expression compiles, refuted (does not compile) for generic layouts. |
| C05 Transposed layout mappings are valid mappings of the same span | proved | `off`, `stride`, `span_size` | Nonlinear arithmetic on nat: offsets below the span, injectivity, strides. |
| C06 copy() copies every element and nothing else | proved | `copy_1/2` | wp with invariants; overlap allowed when aligned. |
| C07 swap_elements() exchanges the two objects | proved | `swap_1/2` | wp; involution as a corollary. |
| C08 scale() multiplies in place | proved | `scale_1/2` | wp. |
| C09 add() is elementwise and alias-tolerant | proved | `add_1/2` | wp; output may alias an input element by element. |
| C10 dot() and dotc() compute the inner product in index order | proved | `dot`, `dotc` | wp; law-free left-to-right sum. |
| C11 vector_abs_sum() is the 1-norm (taxicab for complex) | proved | `vector_abs_sum` | wp over the reals and law-free order. |
| C12 vector_idx_abs_max() returns the first index of maximum modulus | proved | `vector_idx_abs_max` | wp; any strict weak order of magnitudes. |
| C13 vector_sum_of_squares() keeps scale^2*ssq exact | proved | `ssq_step`, `vector_sum_of_squares` | wp, real algebra. |
| C14 vector_two_norm() is init plus the Euclidean norm | proved | `vector_two_norm` | From C13. |
| C15 matrix_frob_norm() is the Frobenius norm | partial | `frob_step`, `matrix_frob_norm` | Real algebra. Refuted by A = [2 1] (returns 2*sqrt(5)): the quotient scale/|a_ij| is used in both branches (blas1_matrix_frob_norm.hpp:112-120). Proved: never below the true norm, and right if and only if the nonzero magnitudes do not decrease in row-major order (C15_frob_norm_right_iff). |
| C16 matrix_inf_norm() and matrix_one_norm() | proved | `matrix_inf_norm`, `matrix_one_norm` | wp, maxima of sums. |
| C17 setup_givens_rotation() (real) yields a rotation annihilating g | proved | `setup_givens_rotation`, `scale_down/up` | Real algebra; fuel shown to suffice. |
| C18 setup_givens_rotation() (complex) yields a rotation annihilating g | partial | `setup_givens_rotation_complex`, `label10/20`, `rare_case`, `common_case`, `unscale` | Real algebra on pairs. c and s proved right for all arguments (c^2+|s|^2 = 1 up to machine epsilon in the documented approximation branch, exactly 1 elsewhere); r proved right if and only if some component exceeds safmn2^2 in magnitude (or an argument is zero); below that it is too large by safmn2^-n, n >= 2 (C18_r_right_iff): the loop of blas1_givens.hpp:366 that undoes the scaling does not run when the arguments were scaled more than once. |
| C19 setup_givens_rotation() always terminates | partial | the loops of Givens set-up | Flocq, any IEEE format. IEEE-754 (Flocq), any format: returns after at most three scaling rounds when no argument is infinite (NaN included); refuted for infinite arguments, for which the scaling loop never ends. |
| C20 apply_givens_rotation() rotates pairs in place | proved | `apply_givens_rotation(_c)` | wp and algebra (norm preservation, inverse). |
| C21 matrix_vector_product(A,x,y) computes y = A x | proved | `matrix_vector_product(_upd)` | wp, law-free. |
| C22 matrix_vector_product(A,x,y,z) computes z = y + A x, z may be y | proved | `matrix_vector_product(_upd)` | wp, law-free. |
| C23 symmetric_matrix_vector_product uses one triangle of a symmetric matrix | proved | `symmetric_matrix_vector_product(_upd)` | wp; two-sided accumulation invariant. Proved without any algebraic law: same order of operations as the general product. |
| C24 hermitian_matrix_vector_product uses one triangle and the real diagonal | proved | `hermitian_matrix_vector_product(_upd)` | As C23 with conj/re. |
| C25 triangular_matrix_vector_product, three forms agree | proved | `trmv_loop`, three forms | wp. Exact (law-free) theorems for the overwriting and updating forms; the in-place form needs a commutative ring because the code multiplies y(j)*A(j,j). |
| C26 triangular_matrix_vector_solve solves the system | proved | `trsv_upper/lower` | wp; substitution invariant, ring with division. |
| C27 Solving is inverse to multiplying | proved | `trsv_upper/lower` | wp; substitution invariant, ring with division. |
| C28 Empty systems are accepted for every index type | partial | `descending_start`, `descending_start_signed` | Modular arithmetic on index types. Refuted for the upper triangle with a 32-bit unsigned size type (loop start wraps to 2^32-1), for the vector solve and the left matrix solve; proved for every other index type, for the lower triangle and for the right matrix solve. |
| C29 matrix_rank_1_update adds the outer product | proved | `matrix_rank_1_update(_c)` | wp. |
| C30 symmetric rank-1/rank-2 updates touch exactly one triangle | proved | symmetric rank-1/2 updates | wp; frame: the other triangle. |
| C31 hermitian rank-1/rank-2 updates touch one triangle and give a real diagonal | proved | hermitian rank-1/2 updates | wp; frame and real diagonal. The statement is proved in full; C31_complex_alpha_refuted only documents that the real-alpha hypothesis of the diagonal claim is necessary. |
| C32 matrix_product(A,B,C) computes C = A B | proved | `matrix_product(_upd)` | wp, law-free. Law-free; the transposed-view consequence needs only commutative multiplication. |
| C33 matrix_product(A,B,E,C) computes C = E + A B, C may be E | proved | `matrix_product(_upd)` | wp, law-free. |
| C34 triangular_matrix_product, left/right, overwriting | proved | `triangular_matrix_product_left/right`, `k_upper`, `k_lower` | wp with index types. Any non-commutative ring; every index type that can represent the extents. |
| C35 in-place triangular products equal the out-of-place ones | proved | `triangular_matrix_left/right_product` | wp; order of overwriting. |
| C36 symmetric_matrix_product, overwriting left/right | proved | `symmetric_matrix_product_left/right` | wp. |
| C37 hermitian_matrix_product, overwriting left/right | partial | `hermitian_matrix_product_left/right` | wp. Left product proved. Right product refuted: the stored diagonal is used unchanged (blas3_matrix_product.hpp); proved for a real diagonal, and the exact result is characterised in all cases. |
| C38 updating symmetric/hermitian products compute E + A B | partial | the four updating stubs | By computation. Refuted: the bodies are assert(false) stubs; with assertions disabled they leave C unchanged. |
| C39 symmetric rank-k / rank-2k updates | proved | rank-k, rank-2k updates | wp. |
| C40 hermitian rank-k / rank-2k updates | proved | rank-k, rank-2k updates | wp. Proved in full; C40_complex_alpha_refuted only documents that the real-alpha hypothesis of the diagonal claim is necessary. |
| C41 triangular_matrix_matrix_left_solve solves T X = B | proved | `trsm_*`, `descending_start_signed` | wp, ring with division. Excluded: 0x0 upper systems with a 32-bit unsigned size type (C28). |
| C42 triangular_matrix_matrix_right_solve solves X T = B | proved | `trsm_*`, `descending_start_signed` | wp, ring with division. Lower triangle: extent representable in the signed counterpart of the index type (otherwise see C43). C42_trsm_side: the overload with a side. |
| C43 Right solve is correct for every index type | partial | `trsm_*`, `descending_start_signed` | wp, ring with division. Refuted: with unsigned 8/16/32-bit index types and an extent above the signed maximum + 1 the lower-triangle loop body never runs. Proved for all signed types, 64-bit types, the upper triangle, and extents up to the signed maximum, for 8 and 16 bits up to the signed maximum + 1, so every extent of these is settled (C43_boundary_partial). Left: 32 bits and extent 2^31, where the code overflows an int. |
| C44 Execution policy never changes the meaning | partial | `Dispatch.v`: 55 policy overloads, 55 inline, 55 without policy | Case analysis over all sites. Proved for every algorithm whose policy overload tests and calls its own name. Refuted: a custom overwriting matrix_product is never chosen; the one-sided products test one name and call another; the solve with a side tests the right solve; rank-1/rank-k overloads reject an lvalue standard policy; longer, self-mapped or cyclic policy chains are followed when an argument lies in the library namespace. C++ overload resolution is modelled as stated at the top of Dispatch.v. |
| C45 Parallel matrix traversal visits every element exactly once, in any schedule | proved | `for_each_matrix_element`, `for_each_triangle_matrix_element` | Ownership theorem `region_owned`. Every interleaving of single loads and stores; race freedom and absence of out-of-range access are part of par_succeeds. Triangle traversal: square matrices, as its callers check. |
| C46 Kokkos rank-1/2/k/2k updates equal the inline ones | proved | `kk_*_rank_*_update` | Ownership theorem plus sequential wp. General and symmetric rank updates; law-free. mdspans whose layout the views reproduce (see C55). |
| C47 Kokkos hermitian updates treat the diagonal like the inline ones | partial | `kk_*_rank_*_update` | Ownership theorem plus sequential wp. Refuted: the Kokkos Hermitian updates keep the imaginary part of the stored diagonal, the inline ones drop it. Proved for real stored diagonals; exact results characterised in all cases. |
| C48 Kokkos updating gemv computes y + A x | partial | `kk_matrix_vector_product_upd` | Ownership plus wp. Refuted: y is added once per column. The value actually computed is characterised; equality with the inline algorithm proved for one column or zero y. |
| C49 Kokkos triangular products are schedule independent, also in place | proved | `kk_trmm_left/right` and callers | Sequence of regions; in-place order. Implicit-unit products (own loops) in any non-commutative ring, including in place; explicit diagonals delegate to KokkosBlas::trmm, which is not in /repo. |
| C50 Kokkos row-parallel matrix-vector products | partial | `kk_sy_he_mv(_upd)`, `kk_trmv_row` | Ownership plus wp. symv and trmv proved. hemv refuted for stored diagonals with a nonzero imaginary part; proved for real ones. |
| C51 Kokkos back end rejects mismatched extents before writing | partial | `check_eq`, `check_left/right/E` | By cases on the checks. Throws exactly on mismatch for every product; refuted for the updating Hermitian right product, which does not check E. |
| C52 Kokkos norms agree with the inline norms | partial | `KKNorm.v` norms | Reduction theorem for commutative monoids; reals. inf_norm proved. Refuted: abs_sum for complex elements (modulus instead of |re|+|im|), norm2 with init != 0, one_norm of a matrix without rows (out-of-range read), sum_of_squares with a dominant or lone init, frob_norm (differs from the inline one, which is itself wrong; NaN for a zero matrix in binary64). Exact values characterised otherwise. For layout_transpose matrices the Frobenius norm (init 0) is right, the one norm and the infinity norm are exchanged (refuted, exact values proved). |
| C53 Triangular solve and in-place triangular product undo each other (matrix versions) | proved | `trsm_*` with `triangular_matrix_*_product` | Composition of C35, C41, C42. |
| C54 Scaled sum of squares never grows beyond the element count | proved | `ssq_step`, `vector_sum_of_squares` | wp, real algebra. |
| C55 Kokkos back end operates on the elements of the mdspans it is given | partial | `view_v`, `view_m` | By computation and by the theorems above. Refuted with a strided vector and with a transposed matrix; proved for contiguous vectors and layout_left/right matrices. |
| C56 Kokkos symmetric and Hermitian matrix products | partial | `kk_sy_he_left/right(_upd)` | Ownership plus wp. Symmetric products proved (law-free); Hermitian products proved for real stored diagonals, refuted otherwise (conj(A(i,i)) is used). |
| C57 Kokkos dot, copy and swap_elements | proved | `kk_dot`, `kk_copy_2`, `kk_swap_1/2` | Reduction and ownership theorems. dot needs commutative, associative addition (any reduction tree). Refuted part: copy does not check extents. copy between equal layouts (Kokkos::deep_copy) and the conjugated dot (KokkosBlas::dot) are outside /repo. |
| C58 BLAS alpha, beta and op(A) through views | proved | views composed with products, updates and solves | Composition of the view theorems (C01-C04) with C21-C53; triangle flips. |
| C59 Rounding error of dot, matrix-vector and matrix-matrix products | proved | `dot`, `matrix_vector_product(_upd)`, `matrix_product(_upd)` at `ieee_ops` | C10, C21, C33 fix the order of the operations without laws; induction over the sum with Flocq's relative error (`dot_err`, `dot_finite`). |
| C60 Triangular solves are substitution in index order in any arithmetic | proved | the three triangular solves | Loop invariants as for C26/C41/C42, without ring laws (PfSub.v). |
| C61 Triangular solves have a small componentwise residual | proved | the three triangular solves at `ieee_ops` | C60 plus error analysis of subtraction chains and of the quotient (PfIeeeSub.v). |
| C62 The two-norm is accurate and free of spurious overflow and underflow | proved | `vector_sum_of_squares`, `vector_two_norm` at `ieee_r` | Invariant over the elements: the scale is the largest magnitude, the scaled sum between 1 and n with relative error; rescaling by a rounded quotient below 1 analysed with Flocq (PfIeeeNorm.v). Per binary format; magnitudes (abs) are those of good_mags: finite, non-negative. Error terms ssq_err in SpecF.v. |
| C63 NaN and infinity are reported by norms, sums and index of the largest element | partial | norms, `vector_abs_sum`, `vector_idx_abs_max` at `ieee_r` | NaN/infinity tracked through each operation (PfIeeeNan.v, PfIeeeSum.v, PfIdxNan.v); refutations by computation in binary64. Proved for vector_two_norm (NaN, one infinity), vector_abs_sum, vector_idx_abs_max without NaN or with a NaN first. Refuted: two_norm is NaN as soon as two elements are infinite (C63_two_norm_two_inf); matrix_inf_norm and matrix_one_norm lose a NaN and with it earlier larger sums (std::max(sum, result)): the result is the largest sum after the last line with a NaN, and NaN only if there is none (C63_inf_norm_after_nan, C63_one_norm_after_nan). Infinite matrix entries proved when no row/column sum is NaN. |
| C64 Parallel Kokkos reductions stay within the error bound in every execution | partial | Kokkos `vector_abs_sum`, `dot`, `vector_norm2` at `ieee_r`/`ieee_ops` | Induction over reduction trees with the error of one addition (PfIeeeRed.v). abs_sum and dot proved over all reduction trees. norm2: rounded root of an accurate sum; freedom from overflow and underflow refuted ((2^600) gives infinity, (2^-600) gives 0; the inline norm is exact). |
| C65 Rounding error of sums of magnitudes and of the 1- and infinity norm | proved | `vector_abs_sum`, `matrix_inf_norm`, `matrix_one_norm` at `ieee_r` | Error of an addition chain; the maximum is exact (PfIeeeSum.v). Real and complex sums, both matrix norms. |
| C66 Narrow elements with a wide accumulator lose nothing to the narrow type | partial | `Mixed.v`: a value carries its C++ type; usual arithmetic conversions; `dot`, `vector_abs_sum`, `vector_two_norm` run on it | Conversion is exact (Flocq); the one-format bounds of C59, C62, C65 applied in the wide format, plus one narrow rounding per product (PfMixed.v). abs_sum and two_norm proved in full. dot: sums in the wide type, products rounded to the narrow type; products in the precision of init refuted (2^100 * 2^100 in float gives infinity; (1+2^-12)^2 loses 2^-24). |
| C67 Integer element types | partial | `Int.v`: unsigned as residues mod 2^w, signed as integers with an undefined value on overflow; existing algorithms run on them | Ring laws of residues; induction over the sum with the partial sums bounded by the sum of magnitudes (PfInt.v). Unsigned and signed proved; 2-norm and Frobenius norm refuted: the scaling divides in the integer type, (3,4) gives 4. Types narrower than int: see C83 for promotion; the norms themselves are modelled for types not promoted. |
| C68 Kokkos overloads that delegate to KokkosBlas: sums, scaling, copies, dot, iamax, products | partial | `KKBlas.v`: each overload as its extent tests followed by the library calls with all arguments; `SpecKB.v`: requirements and guarantees of the calls | Every call is shown to meet its requirements and to be possible; the result holds for every memory within the guarantees (PfKKBlas.v). Proved for untransposed operands and, for matrix_product, one transposed operand and any accessors. Refuted: gemv with layout_transpose A (used untransposed), matrix_product with layout_transpose C (transpose stored), both operands transposed (ambiguous call), updating gemv with scaled or conjugated y (calls a member that does not exist). |
| C69 Kokkos triangular products and solves delegate with the right triangle | partial | `KKBlas.v`, `SpecKB.v`: the meaning of "L" and "U" is a parameter of the contract | As C68; witnesses with a full 2x2 matrix for the refutations. Solves proved for "L"/"U" as in the BLAS, products for "L"/"U" exchanged; refuted that any one meaning of "L" makes both right (trmm_kk passes "U" for the lower triangle, trsm passes "L"). |
| C70 Rounding error of symmetric and triangular products and of rank updates | proved | The algorithms over `ieee_ops` of `Ieee.v`; bounds in `SpecF2.v` | Exact order of operations from the law-free theorems (new for trmm: `trmm_left_raw`), then rules for the propagation of errors through sums and products (PfApprox.v, PfFloat2.v). |
| C71 Rounding error of complex products, updates and triangular solves | proved | The algorithms over `ieee_c` of `IeeeC.v`: complex numbers with the plain product and an arbitrary fallback for NaN products; bounds in `SpecC.v` | As C70, part by part (PfComplex.v, PfComplexOps.v, PfComplexOps2.v, PfComplexTri.v); the solves from the substitution formulas of C60 (PfComplexSub.v). |
| C72 Extents known at compile time | partial | `Static.v`: static extents, `transpose_extents`, the compile-time checks of each function | Case analysis on which extents are static (PfMisc.v). Proved for transposed, dot, givens_rotation_apply, copy, swap_elements, add. Refuted for the products: they make no compile-time check, so a 2x3 matrix times a vector of 4 compiles. |
| C73 layout_blas_general | partial | `LayoutG.v`: `bg_off`, `bg_span`, `bg_stride`, `bg_transposed` | Arithmetic on offsets (PfMisc.v). Span, strides and distinct offsets proved for a positive leading dimension; without one the layout is layout_left or layout_right. Refuted: the offset is LDA times the packed offset, wrong for every matrix with two rows and two columns; is_unique() is true for LDA = 0; transposed() moves elements. |
| C74 Accuracy of real plane rotations in IEEE arithmetic | proved | `Givens.v`: `setup_givens_rotation`, `apply_givens_rotation` over `ieee` (Ieee.v); vocabulary in SpecGF.v | The scaling loops are exact (powers of two, no underflow that matters) and end with the larger argument in a range where squares neither overflow nor vanish; then the standard rounding analysis, on real numbers (PfGivensE.v). Results are characterised whenever the function returns; that it returns is C19_real_returns_partial. |
| C75 The operations are those of matrix algebra | proved | the same functions as C21-C42, over `ring_ops R` (SpecMx.v) for a commutative unit ring R of Mathematical Components | The theorems about sums of elements (C21-C42), rewritten as matrix identities; a triangular matrix is invertible iff its diagonal is (`det_trig`), and the solution is unique (`mulKmx`) (PfMx.v, PfMxOps.v). Index types as in C26, C41, C42 (fits; empty upper solves with a 32-bit unsigned index excluded, see C28). Hermitian operations are not included: conjugation is the identity here; C100 has them. |
| C76 Signed integers: when exactly behaviour is undefined; integer solves | proved | `Int.v` signed integers: `None` is undefined behaviour; the same algorithms | The sum of checked terms is the exact sum iff every term and every partial sum is in range (`sum_sint`); solves from the law-free substitution theorem C60 (PfInt2.v, PfInt3.v). Exact characterisation of undefined behaviour for dot, the updating product, scale, abs_sum; for the solves sufficient conditions. Types narrower than int (promoted): C83. |
| C77 Proxy references stand for the value they denote | partial | `Proxy.v`: proxies over a cell, nested, with every conversion the code performs; types and their operations are a parameter, int and double an instance | Induction on the nesting: with one type every conversion is the identity; counterexample with an int element and a double factor. Proved when one type is used throughout (every ReferenceValue is t and factor * t is a t). Refuted otherwise: scaled_scalar<double, int&, int> converts its product to int, although its value_type is double. atomic_ref is not modelled. |
| C78 copy, swap_elements, scale and add act on every element whatever the rank | partial | `AnyRank.v`: mdspan of any rank with an arbitrary mapping on index tuples; the `if constexpr` rank dispatch of the four inline overloads | Index tuples of ranks 1 and 2 correspond to indices of vectors and matrices, then C06-C09; rank 0 by computation. Proved for ranks 1 and 2, and exactly which ranks compile. Refuted for rank 0: all four algorithms compile and do nothing, although a rank-0 mdspan has one element. |
| C79 A call whose policy maps to the inline policy runs no custom implementation, nested calls included | partial | `Dispatch.v`: `inner`, the calls made by the bodies of inline overloads, and `follow`, the outcome after following them | Case analysis on the tables, then the dispatch lemmas of C44; counterexample: only the default policy is mapped elsewhere. Proved for every algorithm but the triangular solve with a side argument. That one drops its policy and calls the one-sided solve without a policy (blas3_triangular_matrix_matrix_solve.hpp:438, 441), so it runs the custom implementation of the policy the default one is mapped to; characterised exactly and refuted. |
| C80 Triangular solves of mixed element types accumulate in the type of B - A * X | partial | `Typed.v`: the solves with every conversion to the accumulator type and to the type of X; types are a parameter (as in C77), float and double an instance | Loop invariants as for C60, columns and rows as for C41/C42; uniqueness of substitution; counterexample in float/double. Proved for the vector solve, the right solves and the upper left solve. The lower left solve accumulates in the element type of X (blas3_triangular_matrix_matrix_solve.hpp:120): characterised exactly; equality with the vector solve refuted (float X, double A and B: 0 instead of 2^-32). |
| C81 Mixed element types: products are computed in the type of their terms and converted once to the output | partial | `TypedProd.v`: the functions with every conversion to the type of the output; types are a parameter as in C77 | Loop invariants; with a wide accumulator no conversion changes a value (C++ typing laws, met by both instances); counterexamples in float/double and int/double. All functions characterised exactly: every partial sum is converted to the type of the output (of init for dot). That is the sum converted once when the output is at least as wide as the terms (partial theorems); for narrower outputs it is refuted (float y = 1 instead of 1 + 2^-23; dot of (1/2,1/2) and (1,1) with int init is 0). |
| C82 Kokkos back end: the work is done when an algorithm returns | partial | `Async.v`: host and execution space as two processes with a queue; launches, library calls and fences of each writing overload; effects of library calls arbitrary | Invariant over all interleavings: with a final fence the queue is empty and memory is a result of `Par.v`; without it the run in which the host overtakes is exhibited. Proved for the 28 overloads that end with a fence (updates, matrix-vector and matrix-matrix products, copy, swap), which also carries C45-C55 over to asynchronous spaces. Refuted for the triangular products (none of the four overloads fences, any call may return before anything is done; complete after a fence of the caller: partial theorem) and for all overloads ending with a KokkosBlas call. |
| C83 Integers of every width: results are exact up to reduction to the element type | partial | `Ints.v`: integer types of any width with promotions, usual conversions and undefined signed overflow, as an instance of the types of C81 | C81 gives the sequence of operations; induction over the terms shows each partial sum is the reduced exact sum, or undefined exactly from the first overflow on. Exact characterisation for every type: reduced exact result if no operation overflows in int (or the wider element type), undefined otherwise. Never undefined for signed types of up to 16, unsigned of up to 15 and unsigned of at least 32 bits (partial theorem); refuted for unsigned 16-bit types, whose products are computed in int: 65535*65535 overflows. Operands of one type; the mixed case is C81. |
| C84 The results do not depend on the index types of the arguments | proved | `Counter.v`: every inline algorithm again, generated from the model, with its loops on counters of the source's type: `std::common_type_t`, `++`, `--` and `<` with promotion, conversion, wrap-around and undefined overflow | for every loop form (ascending, `<=`, descending, mirrored, ptrdiff_t) the counter stays representable and the comparison is exact, so the loop has the runs of the ideal one; congruence through the bodies. The theorems transfer every other property (`C84_transfer`). The descending loops of the triangular solves and the bounds k_lower/k_upper of the out-of-place triangular products were already modelled with their types (C28, C43) and are kept as they are; these theorems cover the remaining counters. The arithmetic of the layout mappings in the index type is the subject of C92. |
| C85 Calls that do not store to each other's elements can run concurrently | proved | the programs of the model as trees of loads and stores; `SpecRace.v`: footprints for all memory contents, threads interleaved load by load and store by store, data race, termination | footprints by congruence over the loops of each algorithm; a run depends only on its footprint, so the invariant "each thread, continued alone, ends as from the start" is kept by every step of the others; termination by well-foundedness of the product of the program trees. Loads and stores of whole elements are taken as the unit of interleaving and sequentially consistent, which C++ guarantees for programs without data races. The solves and the out-of-place triangular products need extents within the index type (`fits`, see C28 and C43). The Kokkos back end is not covered. |
| C86 Elements are used only through the operations of their type: results transfer along any relation the operations respect | proved | the algorithms of the model over two arbitrary element types (`ops`) at once; `SpecRel.v`: relations respected by the operations, related memories, views and runs | a logical relation on program trees (same shape, related values), shown for every algorithm by congruence over its loops; it implies related sequential runs, interleavings and results of reductions. For the inline algorithms, the set-up of rotations, and the Kokkos algorithms that run their own parallel_for or parallel_reduce (not the calls into KokkosBlas). One element type per call. |
| C87 In-place triangular products, operation by operation, and their rounding error | proved | the in-place triangular products of `Blas2.v`, `Blas3.v` over any `ops` and over `ieee_ops`; order of the terms in `SpecInp.v` | the loops keep the partial sum of the current element as invariant, elements not yet reached being old (PfInplace.v); the sums are then bounded as in C70 for any order of the terms (PfInplaceF.v). C87_order_matters: an example in binary64 where in-place and out-of-place products differ. |
| C88 NaN reaches every result that depends on it | proved | the inline algorithms over any `ops` with a predicate closed under the operations (`SpecNan.v`: `absorbing`) | the values stored, known operation by operation (lemmas behind C59, C60, C70, C87), contain the bad element; sums and substitutions keep it (PfNan.v, PfNanI.v). Inline algorithms. For complex IEEE numbers NaN is not absorbing: the C library may recover an infinity from a product of NaN parts. Norms and sums are C63. |
| C89 Packed matrices | partial | `Packed.v`: the packed mapping of the C++ working draft (the repository only declares it), `packed_transposed`; the inline algorithms on views with that mapping; Kokkos overloads of `KK.v`, `KKBlas.v` | the position of an element is the number of elements in earlier lines plus its place in its line (PfPacked.v, against the list of elements in `SpecPacked.v`); hence a packed view holds a triangle iff the array does, and the theorems for arbitrary layouts apply (PfPackedOps.v, PfPackedK.v). Everything claimed of the inline algorithms is proved; the Kokkos overloads do not compile for packed matrices (C89_kokkos_refuted). The mapping is that of the C++ working draft: the repository declares the class only. |
| C90 The helpers for conj, real, imag and abs depend on the element type only as documented | proved | `Kinds.v`: element types (`elem`) by what the helpers find for them, the operations (`ops_of`) and magnitudes (`mags_of`) the algorithms then use, from `conj_if_needed` … `abs_if_needed` of `Scalar.v` | both algorithms of a pair write the same values, known operation by operation (PfBlas2.v, PfRank.v, PfBlas3.v), once conj and real are the identity (PfKinds.v); the level-1 pairs by congruence of programs. |
| C91 Error bounds hold whatever multiply-adds the compiler fuses | proved | `Fma.v`: IEEE elements as sets of possible values with pending products (`fma_ops`), over which the inline algorithms run; `pick_ops`: one particular way of contracting | bounds are carried through sums and products of such sets, a fused product having one rounding and one underflow less (PfFma.v, PfFma2.v after C59, C70); that runs without contraction, or with a particular one, lie in the sets: C91_plain, C91_pick with C86 (PfFmaRel.v). |
| C92 Element addresses are exact in the index type | proved | `MapIdx.v`: `index_off`, `vindex_off`, `indexed_m`, `indexed_v`; the loops of `Counter.v` | every partial result is at most the span size (PfMapIdx.v); the accesses of the two versions are then equal, and the algorithms follow from C84 (PfMapIdx2.v, generated). |
| C93 Equivalent calls give the same result bit for bit | proved | the inline algorithms as in C10-C42; `SpecAgree.v`: `agree` | both calls are brought to the same left-to-right sums or substitution values by the law-free theorems, then compared cell by cell (PfAgree.v, PfAgree2.v); `C93_trmm_needs_lower` shows the excluded case. |
| C94 Signs and payloads of NaNs in the data are irrelevant | proved | `Payload.v`: Flocq's numbers with payloads and an arbitrary choice function for each operation; the algorithms of the model over them | the relation "equal or both NaN" is respected by all operations (PfPay.v); the rest is C86. Stated for a selection of algorithms; by C94_real, C94_complex and C86 it holds for all of them. The choice of NaN bits is a function of the operands of each operation. |
| C95 Rounded norms keep the order properties of norms | proved | the inline norms of `Norm.v` over `ieee_r` of `Ieee.v`; `SpecOrd.v`: `fle`, `tops`, `scales` | rounding is monotone and keeps numbers of the format, so each addition of a magnitude is monotone and increasing (PfNormOrd.v); the scale of the sum of squares is the largest magnitude and its sum at least one, and quotients are unchanged by scaling (PfNormOrd2.v, PfNormOrd3.v); dependence on magnitudes only, run by run (PfMagOnly.v). Monotonicity is refuted for vector_two_norm (in double the norm of (3, 2) exceeds that of (3 + 2^-51, 2)); as the statement says. Not claimed for matrix_frob_norm, whose scaled sum is wrong (C15). |
| C96 Which elements are accessed depends on shapes only | proved | every algorithm of `Blas1.v`, `Norm.v`, `Blas2.v`, `Blas3.v`, `KK.v`, `KKNorm.v`, and `Acc.v`; `SpecAcc.v`: `accesses`, `same_accesses` | the relation of C86 with the relation that always holds: two programs of the same tree have the same accesses (PfAcc.v, PfAcc2.v); the exceptions by invariants of their folds. Accesses of the model: one load or store per element access in the source; a compiler may keep elements in registers. The model of vector_idx_abs_max used here (Acc.v) performs every load of the source and is proved to behave as the one used elsewhere, which merges repeated loads of one element. |
| C97 Number of loads and stores | proved | the inline algorithms as for C96; `SpecAcc.v`: `performs` | counts composed over sequences and loops, sums over triangles in closed form (PfCost.v). Counts are of the accesses through the views in the source, as for C96. Inline back end only. |
| C98 Computing by blocks gives the same bits | proved | algorithms of `Blas1.v`, `Norm.v`, `Blas2.v`, `Blas3.v`; `SpecBlk.v`: `sub_v`, `sub_m`, `negates` | loops over elements, rows or columns are cut and shifted, the programs being equal access by access (PfBlk.v); sums and substitutions are cut in the values that C21, C23, C39 and C26 give (PfBlk2.v); -1 in IEEE-754 by exactness of the sign (PfBlk3.v). The parts are views with offsets into the whole, as submdspan creates them (submdspan itself belongs to mdspan and is not modelled). The claim for triangular systems is for the lower triangle: for the upper triangle C98_upper_differs shows a system whose solution changes, because the library subtracts the terms of a row from left to right. Cuts of in-place right products, and of triangular products by rows, are not claimed. |
| C99 Triangular solves have a small residual whatever is fused | proved | `Trace.v`: IEEE numbers with the product and the history they come from (`traced_ops`), over which the solves of `Blas2.v`, `Blas3.v` run; `SpecTrace.v` | a subtraction of a product, fused or not, has the same form of backward error; the sums are then bounded as for C61 (PfTrace.v). The choice is a function of the histories of the operands, so it can differ from place to place. A scaled right-hand side (whose elements are products read through the view) is not covered. |
| C100 Hermitian operations are those of matrix algebra with the conjugate transpose | proved | `Blas1.v`, `Blas2.v`, `Blas3.v` over the scalars of a mathcomp `comUnitRingType` with a conjugation (`conj_ring_ops` in `SpecMxH.v`); matrices are mathcomp matrices | the sums of the generic theorems are matrix products with the adjoint (PfMxH.v, PfMxHOps.v); instances are Gaussian rationals and algebraic numbers (MxHInst.v). The matrix that an Hermitian update is given is assumed Hermitian, so its diagonal is real; what happens to a diagonal with imaginary parts is C31. Index types as in C75. |
| C101 Complex products and updates stay accurate whatever is fused | proved | `FmaC.v`: complex numbers over any type of parts (`cx_ops`), with the sets of `Fma.v` or the histories of `Trace.v` as parts; a flag marks real numbers, whose product with a complex one is part by part; `SpecFmaC.v` | each part is a sum of real products as for C91; opposites, differences and recovered NaNs added (PfFmaC.v, PfFmaCOps.v); containment by C86 (PfFmaCTr.v). Stored numbers as inputs; in-place triangular products, solves and updates with alpha are not included. Right products with a Hermitian matrix read its diagonal whole (C37), as in C71. |
| C102 Rounded products and updates are monotone: bounds on the data bound the result | proved | the operations as for C21-C40; `SpecMono.v`: relations that sums and products preserve (`monotone`), two of them between floating-point numbers (`dominated`, `nonneg_below`) | the law-free results of both calls are the same expression; induction over its sums (PfMono.v); rounding is monotone and symmetric (PfMonoI.v). Solves and rotations subtract, and are not monotone. No multiply-adds fused. |
| C103 Results follow the signs and units of the operands exactly, rounding included | proved | the operations as for C21-C40 and the triangular solves (`trsv`, `trsm_left`, `trsm_right`); `SpecUnit.v`: relations that sums, products and quotients preserve (`graded`, `graded_div`): equality up to sign in floating point, up to a power of two in arithmetic with unlimited exponents | the law-free results of both calls are the same expression; induction over its sums, for solves along the order of substitution (PfUnit.v); rounding commutes with negation and with powers of two (PfUnitI.v). No multiply-adds fused. Powers of two are covered as long as no exponent leaves the range (exponents in the arithmetic modelled for them have no limits). Updates with a factor alpha and rotations are not covered. |
| C104 An element of a result depends on its own row and column only, not on its place or on the rest of the data | proved | the operations as for C103, element types without laws; no vocabulary beyond `Spec.v` | the law-free results of both calls are the same expression of the data named; for solves induction along the order of substitution (PfRow.v). Inline (sequential) implementations. Updates with a factor alpha and rotations are not covered. |
| C105 On integer data floating-point results are exact | proved | the operations as for C21-C40 on `ieee_ops`; `SpecExact.v`: numbers that are integers (`int_valued`), the bound (`fits_in`), symmetric and triangular integer matrices | integers up to 2^p are in the format, so rounding a sum or product of that size leaves it unchanged (PfExactI.v); every partial sum is bounded by the sum of magnitudes, in whatever order the code adds, so the law-free results are exact by induction over their sums (PfExact.v). Real formats, every operation rounded to nearest, no multiply-adds fused (fused ones: C106). Updates with a factor alpha and rotations are not covered; triangular solves are in C107. |
| C106 On integer data results are exact whatever multiply-adds are fused | proved | the operations as for C21-C40 on `fma_ops` (sets of possible values, Fma.v); `SpecFused.v`: expressions all of whose possible values are one integer (`surely`) | a fused multiply-add of integers rounds an integer within the bound, so it is exact (PfFusedI.v); then as for C105 (PfFused.v); inclusion of uncontracted and place-by-place contracted arithmetic as in C91 and C99. Real formats, rounding to nearest. Updates with a factor alpha and rotations are not covered; triangular solves are in C107. |
| C107 Triangular systems of integers with an integer solution are solved exactly | proved | the triangular solves on `ieee_ops` and `fma_ops`; `SpecExact.v`, `SpecFused.v` | the results satisfy the equations of substitution (`trsv_subst`, `trsm_left_subst`, `trsm_right_subst` of PfSub.v); induction along the order of substitution: the partial differences are integers within the bound, the last one is t_ii x_i, and its quotient by t_ii is rounded to x_i (PfIntSolve.v, generic in the arithmetic). Real formats, rounding to nearest; with and without contraction. |
| C108 On complex integer data complex floating-point results are exact | proved | the operations as for C21-C40 on `ieee_c` (IeeeC.v); `SpecGauss.v`: complex integers with exact arithmetic (`gauss`), numbers with those parts (`gauss_valued`), `size` | parts of complex products and sums of integers are integers within the bound (PfGaussI.v); the law-free results over floating point and over `gauss` are the same expression, related by induction over its sums (PfGauss.v). Every operation rounded to nearest, no multiply-adds fused. Triangular operations, hermitian_matrix_product from the right and updates with a factor alpha are not covered. |
| C109 On integer data sums of magnitudes and the 1- and infinity-norms are exact | proved | `vector_abs_sum`, `matrix_inf_norm`, `matrix_one_norm` (Norm.v) over `ieee_r`; `SpecExactN.v`: `zmax` | the results in closed form (PfIeeeSum.v) are rounded sums of integers that stay within the bound, and comparisons of integers (PfExactN.v). Inline versions without a parallel reduction. Frobenius and 2-norms take square roots and are not covered. |

## 5. Trusted base

* Coq 8.16.1 kernel, including `vm_compute` (used for closed examples).  No kernel check is switched off; no axiom, parameter,
  admitted proof, functor or module type is added.
* The axioms listed below, all from Coq's standard library (axiomatic reals, functional extensionality, excluded middle);
  they enter through `Reals` and through lemmas of Flocq, which itself adds none.
* The transcription from C++ to Gallina, cited line by line; simplifications are noted in the comments: one element type per
  call, unbounded loop counters and offsets (justified by C84 and C92 for the inline algorithms), merged double
  reads, complex multiplication by the plain formula in the Givens set-up, a real times a complex
  number as a complex product in C71, `safmin`/`safmn2` as parameters.
* The meaning given to things outside /repo: mdspan (P0009, padded layouts of P2642, the packed layout of P1673), Kokkos `parallel_for` /
  `parallel_reduce` / `View` / `deep_copy`, KokkosBlas routines as in `SpecKB.v`, C++ overload resolution as listed in `Dispatch.v`, IEEE-754 as in Flocq.

## 6. Not modelled

KokkosBlas, KokkosKernels and BLAS libraries themselves (their contract is `SpecKB.v`); template machinery other than dispatch (SFINAE
details, static_assert); mixed element types other than in C66, C77, C80 and C81; integer promotion outside C83, C84 and C92; floating-point
rounding other than in C59, C61-C66, C70, C71, C74, C87, C91, C95, C99, C101 to C103 and C105 to C109 (the remaining law-free theorems hold bit for bit in any arithmetic), fused multiply-adds
other than in C91, C99, C101, C106 and C107, extended-precision evaluation; tests, examples and benchmarks of the repository.

### Axioms per theorem

As printed by `Print Assumptions` beneath each theorem in `theories/Prop*.v`.  A theorem that is not named in a list below is
"Closed under the global context".

* `ClassicalDedekindReals.sig_forall_dec`, `ClassicalDedekindReals.sig_not_dec`, `Classical_Prop.classic`, `FunctionalExtensionality.functional_extensionality_dep`: `C93_ieee_commutes`, `C98_ieee_negates`, `C71_dot`, `C71_dotc`, `C71_gemm`, `C71_gemm_upd`, `C71_gemv`, `C71_gemv_upd`, `C71_ger`, `C71_gerc`, `C71_hemm_left`, `C71_hemv`, `C71_hemv_upd`, `C71_her`, `C71_her2`, `C71_her2k`, `C71_herk`, `C71_symv`, `C71_hemm_right`, `C71_her_alpha`, `C71_herk_alpha`, `C71_symm_left`, `C71_symm_right`, `C71_symv_upd`, `C71_syr`, `C71_syr2`, `C71_syr2k`, `C71_syr_alpha`, `C71_syrk`, `C71_syrk_alpha`, `C71_trmm_left`, `C71_trmm_right`, `C71_trmv`, `C71_trmv_upd`, `C71_trsm_left`, `C71_trsm_right`, `C71_trsv`, `C105_add`, `C105_add_2`, `C105_converted`, `C105_dot`, `C105_dotc`, `C105_gemm`, `C105_gemm_upd`, `C105_gemv`, `C105_gemv_upd`, `C105_ger`, `C105_gerc`, `C105_hemm_left`, `C105_hemm_right`, `C105_hemv`, `C105_hemv_upd`, `C105_her`, `C105_her2`, `C105_her2k`, `C105_herk`, `C105_product`, `C105_scale`, `C105_scale_2`, `C105_sum`, `C105_symm_left`, `C105_symm_right`, `C105_symv`, `C105_symv_upd`, `C105_syr`, `C105_syr2`, `C105_syr2k`, `C105_syrk`, `C105_trmm_left`, `C105_trmm_left_inplace`, `C105_trmm_right`, `C105_trmm_right_inplace`, `C105_trmv`, `C105_trmv_inplace`, `C105_trmv_upd`, `C109_abs_sum`, `C109_abs_sum_complex`, `C109_inf_norm`, `C109_one_norm`, `C59_dot`, `C59_dot_noinit`, `C59_gemm`, `C59_gemm_upd`, `C59_gemv`, `C59_gemv_upd`, `C61_trsm_left`, `C61_trsm_right`, `C61_trsv`, `C70_ger`, `C70_symm_left`, `C70_symm_right`, `C70_symv`, `C70_symv_upd`, `C70_syr`, `C70_syr2`, `C70_syr2k`, `C70_syr_alpha`, `C70_syrk`, `C70_syrk_alpha`, `C70_trmm_left`, `C70_trmm_right`, `C70_trmv`, `C70_trmv_upd`, `C91_dot`, `C91_dot_noinit`, `C91_dot_pick`, `C91_gemm`, `C91_gemm_upd`, `C91_gemv`, `C91_gemv_upd`, `C91_ger`, `C91_pick`, `C91_plain`, `C91_symm_left`, `C91_symm_right`, `C91_symv`, `C91_symv_upd`, `C91_syr`, `C91_syr2`, `C91_syr2k`, `C91_syr_alpha`, `C91_syrk`, `C91_syrk_alpha`, `C91_trmm_left`, `C91_trmm_right`, `C91_trmv`, `C91_trmv_upd`, `C101_dot`, `C101_dotc`, `C101_dotc_traced`, `C101_gemm`, `C101_gemm_upd`, `C101_gemv`, `C101_gemv_upd`, `C101_ger`, `C101_gerc`, `C101_hemm_left`, `C101_hemm_right`, `C101_hemv`, `C101_hemv_upd`, `C101_her`, `C101_her2`, `C101_her2k`, `C101_herk`, `C101_real_factor`, `C101_symm_left`, `C101_symm_right`, `C101_symv`, `C101_symv_upd`, `C101_syr`, `C101_syr2`, `C101_syr2k`, `C101_syrk`, `C101_traced`, `C101_trmm_left`, `C101_trmm_right`, `C101_trmv`, `C101_trmv_upd`, `C106_add`, `C106_add_2`, `C106_dot`, `C106_dotc`, `C106_fma`, `C106_gemm`, `C106_gemm_upd`, `C106_gemv`, `C106_gemv_upd`, `C106_ger`, `C106_gerc`, `C106_hemm_left`, `C106_hemm_right`, `C106_hemv`, `C106_hemv_upd`, `C106_her`, `C106_her2`, `C106_her2k`, `C106_herk`, `C106_scale`, `C106_scale_2`, `C106_symm_left`, `C106_symm_right`, `C106_symv`, `C106_symv_upd`, `C106_syr`, `C106_syr2`, `C106_syr2k`, `C106_syrk`, `C106_trmm_left`, `C106_trmm_left_inplace`, `C106_trmm_right`, `C106_trmm_right_inplace`, `C106_trmv`, `C106_trmv_inplace`, `C106_trmv_upd`, `C108_add`, `C108_add_2`, `C108_dot`, `C108_dotc`, `C108_gemm`, `C108_gemm_upd`, `C108_gemv`, `C108_gemv_upd`, `C108_ger`, `C108_gerc`, `C108_hemm_left`, `C108_hemv`, `C108_hemv_upd`, `C108_her`, `C108_her2`, `C108_her2k`, `C108_herk`, `C108_scale`, `C108_scale_2`, `C108_symm_left`, `C108_symm_right`, `C108_symv`, `C108_symv_upd`, `C108_syr`, `C108_syr2`, `C108_syr2k`, `C108_syrk`, `C19_complex_returns_partial`, `C19_complex_returns_refuted`, `C19_real_returns_partial`, `C19_real_returns_refuted`, `C74_apply`, `C74_exact`, `C74_rotates`, `C74_rotation`, `C87_trmm_left_float`, `C87_trmm_right_float`, `C87_trmv_float`, `C107_trsm_left`, `C107_trsm_left_fused`, `C107_trsm_right`, `C107_trsm_right_fused`, `C107_trsv`, `C107_trsv_fused`, `C52_frob_norm_zero_matrix_refuted`, `C66_abs_sum`, `C66_conversion`, `C66_dot_overflow_refuted`, `C66_dot_partial`, `C66_dot_refuted`, `C66_two_norm`, `C102_dominated`, `C102_nonneg`, `C88_nan`, `C62_sum_of_squares`, `C62_two_norm`, `C62_two_norm_noinit`, `C63_abs_sum_inf`, `C63_abs_sum_nan`, `C63_idx_abs_max_partial`, `C63_inf_norm_after_nan`, `C63_inf_norm_inf_partial`, `C63_inf_norm_nan_refuted`, `C63_one_norm_after_nan`, `C63_one_norm_inf_partial`, `C63_one_norm_nan_refuted`, `C63_two_norm_finite`, `C63_two_norm_inf_partial`, `C63_two_norm_inf_refuted`, `C63_two_norm_nan`, `C63_two_norm_two_inf`, `C64_abs_sum`, `C64_dot`, `C64_norm2_overflow_refuted`, `C64_norm2_partial`, `C64_norm2_underflow_refuted`, `C65_abs_sum`, `C65_abs_sum_complex`, `C65_inf_norm`, `C65_one_norm`, `C95_abs_sum`, `C95_abs_sum_complex`, `C95_abs_sum_monotone`, `C95_abs_sum_scaling`, `C95_dot_self`, `C95_inf_norm`, `C95_inf_norm_monotone`, `C95_inf_norm_scaling`, `C95_one_norm`, `C95_one_norm_monotone`, `C95_one_norm_scaling`, `C95_two_norm`, `C95_two_norm_monotone_refuted`, `C95_two_norm_scaling`, `C94_apply_givens_rotation`, `C94_complex`, `C94_complex_dotc`, `C94_complex_hermitian_matrix_rank_k_update_alpha`, `C94_complex_hermitian_matrix_vector_product_upd`, `C94_complex_matrix_product_upd`, `C94_dot`, `C94_forget`, `C94_forget_complex`, `C94_kk_dot`, `C94_kk_matrix_vector_product_upd`, `C94_kk_vector_norm2`, `C94_matrix_frob_norm`, `C94_matrix_inf_norm`, `C94_matrix_product_upd`, `C94_matrix_vector_product_upd`, `C94_real`, `C94_setup_givens_rotation`, `C94_setup_givens_rotation_complex`, `C94_symmetric_matrix_rank_2k_update`, `C94_triangular_matrix_matrix_left_solve`, `C94_triangular_matrix_matrix_right_solve`, `C94_triangular_matrix_vector_product_inplace`, `C94_triangular_matrix_vector_solve`, `C94_vector_sum_of_squares`, `C94_vector_two_norm`, `C77_mixed_types_refuted`, `C99_dot_all_fused`, `C99_dot_none_fused`, `C99_trsm_left`, `C99_trsm_right`, `C99_trsv`, `C99_within_C91`, `C80_left_lower_refuted`, `C81_once_refuted`, `C103_shifts`, `C103_shifts_div`, `C103_signs`, `C103_signs_div`, `C103_signs_square`, `C103_unit`.
* `ClassicalDedekindReals.sig_forall_dec`, `FunctionalExtensionality.functional_extensionality_dep`: `C106_input`, `C106_plain`, `C106_traced`, `C52_abs_sum_same_partial`, `C52_abs_sum_value`, `C52_inf_norm_same`, `C52_inf_norm_transposed_is_one_norm`, `C52_one_norm_same_partial`, `C52_one_norm_transposed_is_inf_norm`, `C52_sum_of_squares_partial`, `C11_abs_sum_at_least_init`, `C11_abs_sum_complex`, `C11_abs_sum_noinit`, `C11_abs_sum_real`, `C13_sum_of_squares`, `C16_inf_norm`, `C16_noinit`, `C16_one_norm`, `C16_rmax0_is_max`, `C16_transposed`, `C54_scaled_sum_bounded`.
* `ClassicalDedekindReals.sig_forall_dec`, `ClassicalDedekindReals.sig_not_dec`, `FunctionalExtensionality.functional_extensionality_dep`: `C17_real_rotation`, `C18_complex_rotation_partial`, `C18_complex_rotation_refuted`, `C18_r_right_iff`, `C52_abs_sum_complex_refuted`, `C52_frob_norm_init`, `C52_frob_norm_same_refuted`, `C52_frob_norm_transposed_partial`, `C52_frob_norm_value_partial`, `C52_norm2_init_refuted`, `C52_norm2_same_partial`, `C52_norm2_value`, `C52_one_norm_no_rows_refuted`, `C52_sum_of_squares_empty_refuted`, `C52_sum_of_squares_refuted`, `C52_transposed_norms_refuted`, `C14_two_norm`, `C14_two_norm_noinit`, `C15_frob_norm_noinit_partial`, `C15_frob_norm_overestimates_partial`, `C15_frob_norm_partial`, `C15_frob_norm_refuted`, `C15_frob_norm_right_iff`.

1154 theorems are closed; 373 use axioms of the standard library as listed.

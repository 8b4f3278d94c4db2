(** Properties C72 (extents known at compile time) and C73 (layout_blas_general). *)
From Coq Require Import List Arith Lia.
From Verif Require Import View Static LayoutG SpecM PfMisc.
Import ListNotations.

(** * C72 *)
(** transposed() exchanges the static and the run-time extents, whichever of them are static. *)
Theorem C72_transposed_extents : forall e, stored_ok e ->
  stored_ok (transpose_extents e) /\ st0 (transpose_extents e) = st1 e /\ st1 (transpose_extents e) = st0 e /\
  extent (transpose_extents e) false = extent e true /\ extent (transpose_extents e) true = extent e false.
Proof. exact transpose_extents_ok. Qed.
Print Assumptions C72_transposed_extents.

Theorem C72_transposed_extents_twice : forall e, stored_ok e -> transpose_extents (transpose_extents e) = e.
Proof. exact transpose_extents_twice. Qed.
Print Assumptions C72_transposed_extents_twice.

(** A call whose run-time extents are equal passes the compile-time checks, whatever is known statically. *)
Theorem C72_valid_vectors_compile : forall x y n, equal_lengths [x; y] n ->
  dot_compiles x y = true /\ givens_compiles x y = true /\ copy_1_compiles x y = true /\ swap_1_compiles x y = true.
Proof. exact valid_1. Qed.
Print Assumptions C72_valid_vectors_compile.
Theorem C72_valid_matrices_compile : forall x y n0 n1, equal_lengths [fst x; fst y] n0 -> equal_lengths [snd x; snd y] n1 ->
  copy_2_compiles x y = true /\ swap_2_compiles x y = true.
Proof. exact valid_2. Qed.
Print Assumptions C72_valid_matrices_compile.
Theorem C72_valid_add_vectors_compile : forall x y z n, equal_lengths [x; y; z] n -> add_1_compiles x y z = true.
Proof. exact valid_add_1. Qed.
Print Assumptions C72_valid_add_vectors_compile.
Theorem C72_valid_add_matrices_compile : forall x y z n0 n1,
  equal_lengths [fst x; fst y; fst z] n0 -> equal_lengths [snd x; snd y; snd z] n1 -> add_2_compiles x y z = true.
Proof. exact valid_add_2. Qed.
Print Assumptions C72_valid_add_matrices_compile.

(** With static extents a call compiles exactly when the extents are equal. *)
Theorem C72_static_vectors : forall m n,
  (dot_compiles (Some m) (Some n) = true <-> m = n) /\ (givens_compiles (Some m) (Some n) = true <-> m = n) /\
  (copy_1_compiles (Some m) (Some n) = true <-> m = n) /\ (swap_1_compiles (Some m) (Some n) = true <-> m = n).
Proof. exact static_1. Qed.
Print Assumptions C72_static_vectors.
Theorem C72_static_matrices : forall m0 m1 n0 n1,
  (copy_2_compiles (Some m0, Some m1) (Some n0, Some n1) = true <-> m0 = n0 /\ m1 = n1) /\
  (swap_2_compiles (Some m0, Some m1) (Some n0, Some n1) = true <-> m0 = n0 /\ m1 = n1).
Proof. exact static_2. Qed.
Print Assumptions C72_static_matrices.
Theorem C72_static_add : forall m0 m1 n0 n1 k0 k1,
  (add_1_compiles (Some m0) (Some n0) (Some k0) = true <-> m0 = k0 /\ n0 = k0) /\
  (add_2_compiles (Some m0, Some m1) (Some n0, Some n1) (Some k0, Some k1) = true <->
    (m0 = k0 /\ n0 = k0) /\ (m1 = k1 /\ n1 = k1)).
Proof. exact static_add. Qed.
Print Assumptions C72_static_add.
Theorem C72_static_add_dynamic_result : forall m n, add_1_compiles (Some m) (Some n) None = true <-> m = n.
Proof. exact add_dynamic. Qed.
Print Assumptions C72_static_add_dynamic_result.

(** In general a call compiles exactly when views with these static extents can have equal lengths, whichever
    extents are dynamic. *)
Theorem C72_vectors_compile : forall x y,
  (dot_compiles x y = true <-> exists n, equal_lengths [x; y] n) /\
  (givens_compiles x y = true <-> exists n, equal_lengths [x; y] n) /\
  (copy_1_compiles x y = true <-> exists n, equal_lengths [x; y] n) /\
  (swap_1_compiles x y = true <-> exists n, equal_lengths [x; y] n).
Proof. exact vectors_iff. Qed.
Print Assumptions C72_vectors_compile.
Theorem C72_matrices_compile : forall x y,
  (copy_2_compiles x y = true <-> (exists n, equal_lengths [fst x; fst y] n) /\ (exists n, equal_lengths [snd x; snd y] n)) /\
  (swap_2_compiles x y = true <-> (exists n, equal_lengths [fst x; fst y] n) /\ (exists n, equal_lengths [snd x; snd y] n)).
Proof. exact matrices_iff. Qed.
Print Assumptions C72_matrices_compile.
Theorem C72_add_compiles : forall x y z, add_1_compiles x y z = true <-> exists n, equal_lengths [x; y; z] n.
Proof. exact add_iff. Qed.
Print Assumptions C72_add_compiles.
Theorem C72_add_matrices_compile : forall x y z, add_2_compiles x y z = true <->
  (exists n, equal_lengths [fst x; fst y; fst z] n) /\ (exists n, equal_lengths [snd x; snd y; snd z] n).
Proof. exact add_2_iff. Qed.
Print Assumptions C72_add_matrices_compile.

(** The full claim asks the same of the products; they accept arguments that no run-time extents can make valid. *)
Theorem C72_products_unchecked_refuted :
  exists A x y, matrix_vector_product_compiles A x y = true /\
    ~ (exists r c, equal_lengths [fst A; y] r /\ equal_lengths [snd A; x] c).
Proof.
  exists (Some 2, Some 3), (Some 4), (Some 2). split; [reflexivity|].
  intros (r & c & _ & H). pose proof (H (Some 3) (or_introl eq_refl) 3 eq_refl).
  pose proof (H (Some 4) (or_intror (or_introl eq_refl)) 4 eq_refl). lia.
Qed.
Print Assumptions C72_products_unchecked_refuted.
Theorem C72_matrix_product_unchecked_refuted :
  exists A B C, matrix_product_compiles A B C = true /\
    ~ (exists r c k, equal_lengths [fst A; fst C] r /\ equal_lengths [snd B; snd C] c /\ equal_lengths [snd A; fst B] k).
Proof.
  exists (Some 2, Some 3), (Some 4, Some 5), (Some 2, Some 5). split; [reflexivity|].
  intros (r & c & k & _ & _ & H). pose proof (H (Some 3) (or_introl eq_refl) 3 eq_refl).
  pose proof (H (Some 4) (or_intror (or_introl eq_refl)) 4 eq_refl). lia.
Qed.
Print Assumptions C72_matrix_product_unchecked_refuted.

Example C72_case :
  let e := Extents2 (Some 3) None [5] in
  stored_ok e /\ transpose_extents e = Extents2 None (Some 3) [5] /\
  equal_lengths [Some 4; None; Some 4] 4 /\ add_1_compiles (Some 4) None (Some 4) = true /\
  add_1_compiles (Some 4) None (Some 5) = false.
Proof.
  repeat split; try reflexivity. intros s [<-|[<-|[<-|[]]]] k E; inversion E; reflexivity.
Qed.

(** * C73 *)
(** Offsets are a combination of the strides, lie within the required span, and distinct elements have distinct
    offsets, if the leading dimension is positive. *)
Theorem C73_strided : forall b i j, bg_off b i j = i * bg_stride b false + j * bg_stride b true.
Proof. exact bg_strided. Qed.
Print Assumptions C73_strided.
Theorem C73_span : forall b i j, i < bg_ext0 b -> j < bg_ext1 b -> 0 < bg_lda b -> bg_off b i j < bg_span b.
Proof. exact bg_in_span. Qed.
Print Assumptions C73_span.
Theorem C73_unique_partial : forall b i j i' j', 0 < bg_lda b ->
  i < bg_ext0 b -> j < bg_ext1 b -> i' < bg_ext0 b -> j' < bg_ext1 b ->
  bg_off b i j = bg_off b i' j' -> i = i' /\ j = j'.
Proof. exact bg_injective. Qed.
Print Assumptions C73_unique_partial.
(** is_contiguous() tells whether the offsets fill the span. *)
Theorem C73_contiguous : forall b,
  (bg_is_contiguous b = true -> forall k, k < bg_span b -> exists i j, i < bg_ext0 b /\ j < bg_ext1 b /\ bg_off b i j = k) /\
  (bg_is_contiguous b = false -> 0 < bg_lda b -> 0 < bg_ext0 b -> 0 < bg_ext1 b ->
   exists k, k < bg_span b /\ forall i j, bg_off b i j <> k).
Proof. exact (fun b => conj (bg_contiguous b) (bg_not_contiguous b)). Qed.
Print Assumptions C73_contiguous.
(** is_unique() is true for a leading dimension of 0, where all elements share one offset. *)
Theorem C73_unique_refuted : exists b, bg_is_unique b = true /\ exists i j i' j',
  i < bg_ext0 b /\ j < bg_ext1 b /\ i' < bg_ext0 b /\ j' < bg_ext1 b /\ (i, j) <> (i', j') /\ bg_off b i j = bg_off b i' j'.
Proof.
  exists (bg_of_lda ColMajor 2 2 0). split; [reflexivity|]. exists 0, 0, 1, 1. cbn. repeat split; try lia. congruence.
Qed.
Print Assumptions C73_unique_refuted.
(** Without a leading dimension the layout is layout_left or layout_right. *)
Theorem C73_default_leading_dimension : forall o e0 e1 i j,
  bg_off (bg_of_extents o e0 e1) i j = off (base_of o) e0 e1 i j.
Proof. exact bg_lda_one. Qed.
Print Assumptions C73_default_leading_dimension.

(** The meaning of a leading dimension: right for a single row (column-major) or column (row-major) only ... *)
Theorem C73_leading_dimension_partial : forall o e0 e1 lda i j,
  match o with ColMajor => e0 | RowMajor => e1 end = 1 -> i < e0 -> j < e1 ->
  bg_off (bg_of_lda o e0 e1 lda) i j = blas_offset o lda i j.
Proof. exact bg_line. Qed.
Print Assumptions C73_leading_dimension_partial.
(** ... and wrong for every matrix with two rows and two columns, whatever the leading dimension. *)
Theorem C73_leading_dimension_always_wrong : forall o e0 e1 lda, 2 <= e0 -> 2 <= e1 -> valid_lda o e0 e1 lda ->
  exists i j, i < e0 /\ j < e1 /\ bg_off (bg_of_lda o e0 e1 lda) i j <> blas_offset o lda i j.
Proof. exact bg_wrong. Qed.
Print Assumptions C73_leading_dimension_always_wrong.
Theorem C73_leading_dimension_refuted : exists o e0 e1 lda i j,
  valid_lda o e0 e1 lda /\ i < e0 /\ j < e1 /\ bg_off (bg_of_lda o e0 e1 lda) i j <> blas_offset o lda i j.
Proof. exists ColMajor, 2, 2, 3, 0, 1. cbn. repeat split; lia. Qed.
Print Assumptions C73_leading_dimension_refuted.

(** Transposition. *)
Theorem C73_transposed_partial : forall b i j,
  match bg_order b with ColMajor => bg_ext0 b | RowMajor => bg_ext1 b end = 1 ->
  i < bg_ext0 b -> j < bg_ext1 b -> bg_off (bg_transposed b) j i = bg_off b i j.
Proof. exact bg_transposed_line. Qed.
Print Assumptions C73_transposed_partial.
Theorem C73_transposed_always_wrong : forall b, 2 <= bg_ext0 b -> 2 <= bg_ext1 b -> 0 < bg_lda b ->
  exists i j, i < bg_ext0 b /\ j < bg_ext1 b /\ bg_off (bg_transposed b) j i <> bg_off b i j.
Proof. exact bg_transposed_wrong. Qed.
Print Assumptions C73_transposed_always_wrong.
Theorem C73_transposed_refuted : exists b i j, bg_lda b = 1 /\ i < bg_ext0 b /\ j < bg_ext1 b /\
  bg_off (bg_transposed b) j i <> bg_off b i j.
Proof. exists (bg_of_extents ColMajor 2 2), 1, 0. cbn. repeat split; lia. Qed.
Print Assumptions C73_transposed_refuted.

Example C73_case :
  let b := bg_of_lda ColMajor 2 3 4 in
  bg_off b 1 2 = 20 /\ blas_offset ColMajor 4 1 2 = 9 /\ bg_span b = 24 /\ bg_stride b true = 8 /\
  bg_off (bg_of_lda ColMajor 1 3 4) 0 2 = blas_offset ColMajor 4 0 2 /\ bg_off (bg_transposed b) 2 1 = 40 /\ bg_is_contiguous b = false /\
  bg_is_contiguous (bg_of_extents RowMajor 2 3) = true.
Proof. repeat split. Qed.

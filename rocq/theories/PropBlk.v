(** C98: computing by blocks gives the same bits.  An algorithm applied to whole views has the effect of applying it to
    the parts of the views one after the other: no law of arithmetic is assumed, so the theorems hold for floating point. *)
From Coq Require Import List Arith NArith ZArith Bool Lia.
From Flocq Require Import Core.Core IEEE754.BinarySingleNaN.
From Verif Require Import Mem Scalar View Spec SpecAgree SpecBlk Idx Ieee Wp Norm Blas1 Blas2 Blas3 Inst PropBlas2 PropFloat PropNormF PfBlk PfBlk2 PfBlk3.
Import ListNotations.
Local Open Scope nat_scope.

(** * Cutting the loop over elements, rows or columns
    Exact: same result, same memory, same failure, whatever the memory contains and however the views overlap. *)
Theorem C98_copy_1 : forall (O : ops) (x y : vec O) k, k <= vext y -> vext x = vext y ->
  same_effect (copy_1 x y)
    (bind (copy_1 (sub_v x 0 k) (sub_v y 0 k)) (fun _ => copy_1 (sub_v x k (vext x - k)) (sub_v y k (vext y - k)))).
Proof. exact @blk_copy_1. Qed.
Print Assumptions C98_copy_1.
Theorem C98_swap_1 : forall (O : ops) (x y : vec O) k, k <= vext y -> vext x = vext y ->
  same_effect (swap_1 x y)
    (bind (swap_1 (sub_v x 0 k) (sub_v y 0 k)) (fun _ => swap_1 (sub_v x k (vext x - k)) (sub_v y k (vext y - k)))).
Proof. exact @blk_swap_1. Qed.
Print Assumptions C98_swap_1.
Theorem C98_scale_1 : forall (O : ops) alpha (x : vec O) k, k <= vext x -> 
  same_effect (scale_1 alpha x)
    (bind (scale_1 alpha (sub_v x 0 k)) (fun _ => scale_1 alpha (sub_v x k (vext x - k)))).
Proof. exact @blk_scale_1. Qed.
Print Assumptions C98_scale_1.
Theorem C98_add_1 : forall (O : ops) (x y z : vec O) k, k <= vext z -> vext x = vext z -> vext y = vext z ->
  same_effect (add_1 x y z)
    (bind (add_1 (sub_v x 0 k) (sub_v y 0 k) (sub_v z 0 k)) (fun _ => add_1 (sub_v x k (vext x - k)) (sub_v y k (vext y - k)) (sub_v z k (vext z - k)))).
Proof. exact @blk_add_1. Qed.
Print Assumptions C98_add_1.
Theorem C98_givens : forall (O : ops) (x y : vec O) c s k, k <= vext x -> vext x = vext y ->
  same_effect (apply_givens_rotation x y c s)
    (bind (apply_givens_rotation (sub_v x 0 k) (sub_v y 0 k) c s) (fun _ => apply_givens_rotation (sub_v x k (vext x - k)) (sub_v y k (vext y - k)) c s)).
Proof. exact @blk_apply_givens_rotation. Qed.
Print Assumptions C98_givens.
Theorem C98_givens_c : forall (O : ops) (x y : vec O) c s k, k <= vext x -> vext x = vext y ->
  same_effect (apply_givens_rotation_c x y c s)
    (bind (apply_givens_rotation_c (sub_v x 0 k) (sub_v y 0 k) c s) (fun _ => apply_givens_rotation_c (sub_v x k (vext x - k)) (sub_v y k (vext y - k)) c s)).
Proof. exact @blk_apply_givens_rotation_c. Qed.
Print Assumptions C98_givens_c.
Theorem C98_dot : forall (O : ops) (x y : vec O) init k, k <= vext x -> vext x = vext y ->
  same_effect (dot x y init)
    (bind (dot (sub_v x 0 k) (sub_v y 0 k) init) (fun s => dot (sub_v x k (vext x - k)) (sub_v y k (vext y - k)) s)).
Proof. exact @blk_dot. Qed.
Print Assumptions C98_dot.
Theorem C98_copy_2_columns : forall (O : ops) (x y : mat O) k, k <= ext1 y -> ext0 x = ext0 y -> ext1 x = ext1 y ->
  same_effect (copy_2 x y)
    (bind (copy_2 (sub_m x 0 (ext0 x) 0 k) (sub_m y 0 (ext0 y) 0 k)) (fun _ => copy_2 (sub_m x 0 (ext0 x) k (ext1 x - k)) (sub_m y 0 (ext0 y) k (ext1 y - k)))).
Proof. exact @blk_copy_2. Qed.
Print Assumptions C98_copy_2_columns.
Theorem C98_swap_2_columns : forall (O : ops) (x y : mat O) k, k <= ext1 y -> ext0 x = ext0 y -> ext1 x = ext1 y ->
  same_effect (swap_2 x y)
    (bind (swap_2 (sub_m x 0 (ext0 x) 0 k) (sub_m y 0 (ext0 y) 0 k)) (fun _ => swap_2 (sub_m x 0 (ext0 x) k (ext1 x - k)) (sub_m y 0 (ext0 y) k (ext1 y - k)))).
Proof. exact @blk_swap_2. Qed.
Print Assumptions C98_swap_2_columns.
Theorem C98_scale_2_columns : forall (O : ops) alpha (x : mat O) k, k <= ext1 x -> 
  same_effect (scale_2 alpha x)
    (bind (scale_2 alpha (sub_m x 0 (ext0 x) 0 k)) (fun _ => scale_2 alpha (sub_m x 0 (ext0 x) k (ext1 x - k)))).
Proof. exact @blk_scale_2. Qed.
Print Assumptions C98_scale_2_columns.
Theorem C98_add_2_columns : forall (O : ops) (x y z : mat O) k, k <= ext1 x -> ext0 y = ext0 x -> ext1 y = ext1 x -> ext0 z = ext0 x -> ext1 z = ext1 x ->
  same_effect (add_2 x y z)
    (bind (add_2 (sub_m x 0 (ext0 x) 0 k) (sub_m y 0 (ext0 y) 0 k) (sub_m z 0 (ext0 z) 0 k)) (fun _ => add_2 (sub_m x 0 (ext0 x) k (ext1 x - k)) (sub_m y 0 (ext0 y) k (ext1 y - k)) (sub_m z 0 (ext0 z) k (ext1 z - k)))).
Proof. exact @blk_add_2. Qed.
Print Assumptions C98_add_2_columns.
Theorem C98_gemv_rows : forall (O : ops) (A : mat O) x y k, k <= ext0 A -> vext y = ext0 A ->
  same_effect (matrix_vector_product A x y)
    (bind (matrix_vector_product (sub_m A 0 k 0 (ext1 A)) x (sub_v y 0 k)) (fun _ => matrix_vector_product (sub_m A k (ext0 A - k) 0 (ext1 A)) x (sub_v y k (vext y - k)))).
Proof. exact @blk_matrix_vector_product. Qed.
Print Assumptions C98_gemv_rows.
Theorem C98_gemv_upd_rows : forall (O : ops) (A : mat O) x y z k, k <= ext0 A -> vext y = ext0 A -> vext z = ext0 A ->
  same_effect (matrix_vector_product_upd A x y z)
    (bind (matrix_vector_product_upd (sub_m A 0 k 0 (ext1 A)) x (sub_v y 0 k) (sub_v z 0 k)) (fun _ => matrix_vector_product_upd (sub_m A k (ext0 A - k) 0 (ext1 A)) x (sub_v y k (vext y - k)) (sub_v z k (vext z - k)))).
Proof. exact @blk_matrix_vector_product_upd. Qed.
Print Assumptions C98_gemv_upd_rows.
Theorem C98_ger_rows : forall (O : ops) (x y : vec O) A k, k <= ext0 A -> vext x = ext0 A ->
  same_effect (matrix_rank_1_update x y A)
    (bind (matrix_rank_1_update (sub_v x 0 k) y (sub_m A 0 k 0 (ext1 A))) (fun _ => matrix_rank_1_update (sub_v x k (vext x - k)) y (sub_m A k (ext0 A - k) 0 (ext1 A)))).
Proof. exact @blk_matrix_rank_1_update. Qed.
Print Assumptions C98_ger_rows.
Theorem C98_gemm_rows : forall (O : ops) (A B C : mat O) k, k <= ext0 C -> ext0 A = ext0 C ->
  same_effect (matrix_product A B C)
    (bind (matrix_product (sub_m A 0 k 0 (ext1 A)) B (sub_m C 0 k 0 (ext1 C))) (fun _ => matrix_product (sub_m A k (ext0 A - k) 0 (ext1 A)) B (sub_m C k (ext0 C - k) 0 (ext1 C)))).
Proof. exact @blk_matrix_product. Qed.
Print Assumptions C98_gemm_rows.
Theorem C98_gemm_upd_rows : forall (O : ops) (A B E C : mat O) k, k <= ext0 C -> ext0 A = ext0 C -> ext0 E = ext0 C -> ext1 E = ext1 C ->
  same_effect (matrix_product_upd A B E C)
    (bind (matrix_product_upd (sub_m A 0 k 0 (ext1 A)) B (sub_m E 0 k 0 (ext1 E)) (sub_m C 0 k 0 (ext1 C))) (fun _ => matrix_product_upd (sub_m A k (ext0 A - k) 0 (ext1 A)) B (sub_m E k (ext0 E - k) 0 (ext1 E)) (sub_m C k (ext0 C - k) 0 (ext1 C)))).
Proof. exact @blk_matrix_product_upd. Qed.
Print Assumptions C98_gemm_upd_rows.
Theorem C98_trmm_left_columns : forall (O : ops) ty (A B C : mat O) t d k, k <= ext1 C -> ext0 B = ext0 C -> ext1 B = ext1 C -> fits ty (ext0 C) ->
  same_effect (triangular_matrix_product_left ty A t d B C)
    (bind (triangular_matrix_product_left ty A t d (sub_m B 0 (ext0 B) 0 k) (sub_m C 0 (ext0 C) 0 k)) (fun _ => triangular_matrix_product_left ty A t d (sub_m B 0 (ext0 B) k (ext1 B - k)) (sub_m C 0 (ext0 C) k (ext1 C - k)))).
Proof. exact @blk_triangular_matrix_product_left. Qed.
Print Assumptions C98_trmm_left_columns.
Theorem C98_trmm_in_place_columns : forall (O : ops) (A C : mat O) t d k, k <= ext1 C -> 
  same_effect (triangular_matrix_left_product A t d C)
    (bind (triangular_matrix_left_product A t d (sub_m C 0 (ext0 C) 0 k)) (fun _ => triangular_matrix_left_product A t d (sub_m C 0 (ext0 C) k (ext1 C - k)))).
Proof. exact @blk_triangular_matrix_left_product. Qed.
Print Assumptions C98_trmm_in_place_columns.
Theorem C98_symm_left_columns : forall (O : ops) (A B C : mat O) t k, k <= ext1 C -> ext1 A = ext0 B -> ext1 B = ext1 C ->
  same_effect (symmetric_matrix_product_left A t B C)
    (bind (symmetric_matrix_product_left A t (sub_m B 0 (ext0 B) 0 k) (sub_m C 0 (ext0 C) 0 k)) (fun _ => symmetric_matrix_product_left A t (sub_m B 0 (ext0 B) k (ext1 B - k)) (sub_m C 0 (ext0 C) k (ext1 C - k)))).
Proof. exact @blk_symmetric_matrix_product_left. Qed.
Print Assumptions C98_symm_left_columns.
Theorem C98_hemm_left_columns : forall (O : ops) (A B C : mat O) t k, k <= ext1 C -> ext0 A = ext0 C -> ext1 A = ext0 C -> ext0 B = ext0 C -> ext1 B = ext1 C ->
  same_effect (hermitian_matrix_product_left A t B C)
    (bind (hermitian_matrix_product_left A t (sub_m B 0 (ext0 B) 0 k) (sub_m C 0 (ext0 C) 0 k)) (fun _ => hermitian_matrix_product_left A t (sub_m B 0 (ext0 B) k (ext1 B - k)) (sub_m C 0 (ext0 C) k (ext1 C - k)))).
Proof. exact @blk_hermitian_matrix_product_left. Qed.
Print Assumptions C98_hemm_left_columns.
Theorem C98_trsm_left_columns : forall (O : ops) ty (A B X : mat O) t d k, k <= ext1 B -> ext0 A = ext0 X -> ext0 B = ext0 X -> ext1 B = ext1 X -> fits ty (ext0 A) -> (ext0 A = 0 -> ty <> U32) ->
  same_effect (triangular_matrix_matrix_left_solve ty A t d B X)
    (bind (triangular_matrix_matrix_left_solve ty A t d (sub_m B 0 (ext0 B) 0 k) (sub_m X 0 (ext0 X) 0 k)) (fun _ => triangular_matrix_matrix_left_solve ty A t d (sub_m B 0 (ext0 B) k (ext1 B - k)) (sub_m X 0 (ext0 X) k (ext1 X - k)))).
Proof. exact @blk_triangular_matrix_matrix_left_solve. Qed.
Print Assumptions C98_trsm_left_columns.
Theorem C98_trsm_right_rows : forall (O : ops) ty (A B X : mat O) t d k, k <= ext0 B -> ext0 A = ext1 A -> ext1 A = ext1 X -> ext1 B = ext1 X -> ext0 B = ext0 X -> (t = Lower -> fits (make_signed ty) (ext1 A)) ->
  same_effect (triangular_matrix_matrix_right_solve ty A t d B X)
    (bind (triangular_matrix_matrix_right_solve ty A t d (sub_m B 0 k 0 (ext1 B)) (sub_m X 0 k 0 (ext1 X))) (fun _ => triangular_matrix_matrix_right_solve ty A t d (sub_m B k (ext0 B - k) 0 (ext1 B)) (sub_m X k (ext0 X - k) 0 (ext1 X)))).
Proof. exact @blk_triangular_matrix_matrix_right_solve. Qed.
Print Assumptions C98_trsm_right_rows.
Theorem C98_abs_sum : forall (O : ops) (F : rops) (M : mags O F) (x : vec O) init k, k <= vext x ->
  same_effect (vector_abs_sum M x init) (bind (vector_abs_sum M (sub_v x 0 k) init) (fun s => vector_abs_sum M (sub_v x k (vext x - k)) s)).
Proof. exact @blk_abs_sum. Qed.
Print Assumptions C98_abs_sum.
Theorem C98_sum_of_squares : forall (O : ops) (F : rops) (M : mags O F) (x : vec O) init k, k <= vext x ->
  same_effect (vector_sum_of_squares M x init)
    (bind (vector_sum_of_squares M (sub_v x 0 k) init) (fun s => vector_sum_of_squares M (sub_v x k (vext x - k)) s)).
Proof. exact @blk_ssq. Qed.
Print Assumptions C98_sum_of_squares.

(** The hypotheses on small views, for the cut after one element, row or column. *)
Section Cases.
Local Notation V := (vec_at (O := F64)).
Local Notation R := (row_major (O := F64)).
Local Notation C := (col_major (O := F64)).
Example C98_vectors_case :
  same_effect (copy_1 (V 0 3) (V 3 3)) (bind (copy_1 (sub_v (V 0 3) 0 1) (sub_v (V 3 3) 0 1)) (fun _ => copy_1 (sub_v (V 0 3) 1 2) (sub_v (V 3 3) 1 2))) /\
  same_effect (add_1 (V 0 3) (V 0 3) (V 3 3)) (bind (add_1 (sub_v (V 0 3) 0 1) (sub_v (V 0 3) 0 1) (sub_v (V 3 3) 0 1))
    (fun _ => add_1 (sub_v (V 0 3) 1 2) (sub_v (V 0 3) 1 2) (sub_v (V 3 3) 1 2))) /\
  same_effect (dot (V 0 3) (V 3 3) (fl 1 0)) (bind (dot (sub_v (V 0 3) 0 1) (sub_v (V 3 3) 0 1) (fl 1 0)) (fun s => dot (sub_v (V 0 3) 1 2) (sub_v (V 3 3) 1 2) s)).
Proof.
  split; [|split].
  - apply (C98_copy_1 F64 (V 0 3) (V 3 3) 1); simpl; lia.
  - apply (C98_add_1 F64 (V 0 3) (V 0 3) (V 3 3) 1); simpl; lia.
  - apply (C98_dot F64 (V 0 3) (V 3 3) (fl 1 0) 1); simpl; lia.
Qed.
Example C98_matrices_case :
  same_effect (matrix_product (R 0 3 2) (R 6 2 2) (C 10 3 2))
    (bind (matrix_product (sub_m (R 0 3 2) 0 1 0 2) (R 6 2 2) (sub_m (C 10 3 2) 0 1 0 2)) (fun _ => matrix_product (sub_m (R 0 3 2) 1 2 0 2) (R 6 2 2) (sub_m (C 10 3 2) 1 2 0 2))) /\
  same_effect (triangular_matrix_matrix_left_solve U64 (R 0 3 3) Lower Explicit (R 9 3 2) (C 15 3 2))
    (bind (triangular_matrix_matrix_left_solve U64 (R 0 3 3) Lower Explicit (sub_m (R 9 3 2) 0 3 0 1) (sub_m (C 15 3 2) 0 3 0 1))
      (fun _ => triangular_matrix_matrix_left_solve U64 (R 0 3 3) Lower Explicit (sub_m (R 9 3 2) 0 3 1 1) (sub_m (C 15 3 2) 0 3 1 1))).
Proof.
  split.
  - apply (C98_gemm_rows F64 (R 0 3 2) (R 6 2 2) (C 10 3 2) 1); simpl; lia.
  - apply (C98_trsm_left_columns F64 U64 (R 0 3 3) (R 9 3 2) (C 15 3 2) Lower Explicit 1); try (simpl; lia); split; vm_compute; discriminate.
Qed.
End Cases.

(** * Cutting the summation index
    The second part is an updating call that continues the sums of the first. *)
Theorem C98_gemv_columns : forall (O : ops) (m : mem O) A x y a f k, k <= ext1 A ->
  vext x = ext1 A -> vext y = ext0 A ->
  mat_holds m A a -> vec_holds m x f -> vwritable y -> allocated m (vcells y) ->
  disjoint (mcells A) (vcells y) -> disjoint (vcells x) (vcells y) ->
  agree (matrix_vector_product A x y)
    (bind (matrix_vector_product (sub_m A 0 (ext0 A) 0 k) (sub_v x 0 k) y)
      (fun _ => matrix_vector_product_upd (sub_m A 0 (ext0 A) k (ext1 A - k)) (sub_v x k (vext x - k)) y y)) m.
Proof. exact @gemv_inner. Qed.
Print Assumptions C98_gemv_columns.
Theorem C98_gemv_upd_columns : forall (O : ops) (m : mem O) A x y z a f g k, k <= ext1 A ->
  vext x = ext1 A -> vext y = ext0 A -> vext z = ext0 A ->
  mat_holds m A a -> vec_holds m x f -> vec_holds m y g -> vwritable z -> allocated m (vcells z) ->
  disjoint (mcells A) (vcells z) -> disjoint (vcells x) (vcells z) -> disjoint_or_aligned_v y z ->
  agree (matrix_vector_product_upd A x y z)
    (bind (matrix_vector_product_upd (sub_m A 0 (ext0 A) 0 k) (sub_v x 0 k) y z)
      (fun _ => matrix_vector_product_upd (sub_m A 0 (ext0 A) k (ext1 A - k)) (sub_v x k (vext x - k)) z z)) m.
Proof. exact @gemv_upd_inner. Qed.
Print Assumptions C98_gemv_upd_columns.
Theorem C98_gemm_inner : forall (O : ops) (m : mem O) A B C a b k, k <= ext1 A ->
  ext0 C = ext0 A -> ext1 A = ext0 B -> ext1 C = ext1 B ->
  mat_holds m A a -> mat_holds m B b -> mwritable C -> allocated m (mcells C) ->
  disjoint (mcells A) (mcells C) -> disjoint (mcells B) (mcells C) ->
  agree (matrix_product A B C)
    (bind (matrix_product (sub_m A 0 (ext0 A) 0 k) (sub_m B 0 k 0 (ext1 B)) C)
      (fun _ => matrix_product_upd (sub_m A 0 (ext0 A) k (ext1 A - k)) (sub_m B k (ext0 B - k) 0 (ext1 B)) C C)) m.
Proof. exact @gemm_inner. Qed.
Print Assumptions C98_gemm_inner.
Theorem C98_gemm_upd_inner : forall (O : ops) (m : mem O) A B E C a b e k, k <= ext1 A ->
  ext0 C = ext0 A -> ext1 A = ext0 B -> ext1 C = ext1 B -> ext0 E = ext0 C -> ext1 E = ext1 C ->
  mat_holds m A a -> mat_holds m B b -> mat_holds m E e -> mwritable C -> allocated m (mcells C) ->
  disjoint (mcells A) (mcells C) -> disjoint (mcells B) (mcells C) -> disjoint_or_aligned_m E C ->
  agree (matrix_product_upd A B E C)
    (bind (matrix_product_upd (sub_m A 0 (ext0 A) 0 k) (sub_m B 0 k 0 (ext1 B)) E C)
      (fun _ => matrix_product_upd (sub_m A 0 (ext0 A) k (ext1 A - k)) (sub_m B k (ext0 B - k) 0 (ext1 B)) C C)) m.
Proof. exact @gemm_upd_inner. Qed.
Print Assumptions C98_gemm_upd_inner.
Theorem C98_syrk_columns : forall (O : ops) (m : mem O) A C t a c k, k <= ext1 A ->
  ext0 C = ext1 C -> ext0 A = ext0 C -> 
  mat_holds m A a -> mat_holds_on m C (in_tri t) c -> mwritable_on C (in_tri t) ->
  disjoint (mcells A) (mcells_on C (in_tri t)) -> 
  agree (symmetric_matrix_rank_k_update A C t)
    (bind (symmetric_matrix_rank_k_update (sub_m A 0 (ext0 A) 0 k) C t) (fun _ => (symmetric_matrix_rank_k_update (sub_m A 0 (ext0 A) k (ext1 A - k)) C t))) m.
Proof. exact @syrk_inner. Qed.
Print Assumptions C98_syrk_columns.
Theorem C98_syrk_alpha_columns : forall (O : ops) (m : mem O) alpha A C t a c k, k <= ext1 A ->
  ext0 C = ext1 C -> ext0 A = ext0 C -> 
  mat_holds m A a -> mat_holds_on m C (in_tri t) c -> mwritable_on C (in_tri t) ->
  disjoint (mcells A) (mcells_on C (in_tri t)) -> 
  agree (symmetric_matrix_rank_k_update_alpha alpha A C t)
    (bind (symmetric_matrix_rank_k_update_alpha alpha (sub_m A 0 (ext0 A) 0 k) C t) (fun _ => (symmetric_matrix_rank_k_update_alpha alpha (sub_m A 0 (ext0 A) k (ext1 A - k)) C t))) m.
Proof. exact @syrk_alpha_inner. Qed.
Print Assumptions C98_syrk_alpha_columns.
Theorem C98_syr2k_columns : forall (O : ops) (m : mem O) A B C t a b c k, k <= ext1 A ->
  ext0 C = ext1 C -> ext0 A = ext0 C -> ext0 B = ext0 C -> ext1 B = ext1 A -> 
  mat_holds m A a -> mat_holds m B b -> mat_holds_on m C (in_tri t) c -> mwritable_on C (in_tri t) ->
  disjoint (mcells A) (mcells_on C (in_tri t)) -> disjoint (mcells B) (mcells_on C (in_tri t)) ->
  agree (symmetric_matrix_rank_2k_update A B C t)
    (bind (symmetric_matrix_rank_2k_update (sub_m A 0 (ext0 A) 0 k) (sub_m B 0 (ext0 B) 0 k) C t) (fun _ => (symmetric_matrix_rank_2k_update (sub_m A 0 (ext0 A) k (ext1 A - k)) (sub_m B 0 (ext0 B) k (ext1 B - k)) C t))) m.
Proof. exact @syr2k_inner. Qed.
Print Assumptions C98_syr2k_columns.
(** * Cutting the columns of a product *)
Theorem C98_gemm_columns : forall (O : ops) (m : mem O) A B C a b k, k <= ext1 C ->
  ext0 C = ext0 A -> ext1 A = ext0 B -> ext1 C = ext1 B ->
  mat_holds m A a -> mat_holds m B b -> mwritable C -> allocated m (mcells C) ->
  disjoint (mcells A) (mcells C) -> disjoint (mcells B) (mcells C) ->
  agree (matrix_product A B C)
    (bind (matrix_product A (sub_m B 0 (ext0 B) 0 k) (sub_m C 0 (ext0 C) 0 k))
      (fun _ => matrix_product A (sub_m B 0 (ext0 B) k (ext1 B - k)) (sub_m C 0 (ext0 C) k (ext1 C - k)))) m.
Proof. exact @gemm_cols. Qed.
Print Assumptions C98_gemm_columns.

Definition m98 : mem F64 := mem_of [fl 1 53; fl 1 0; fl (-1) 53; fl 1 0; fl 1 0; fl 3 0;  fl 1 0; fl 1 0; fl 1 0;  fl 0 0; fl 0 0; fl 0 0; fl 0 0]%Z.
Definition a98 : nat -> nat -> F64 := fm [[fl 1 53; fl 1 0; fl (-1) 53]; [fl 1 0; fl 1 0; fl 3 0]]%Z.
(** 2^53 + 1 - 2^53 gives 0 from left to right, and also when the columns are cut after the first. *)
Example C98_inner_case :
  agree (matrix_vector_product (row_major 0 2 3) (vec_at 6 3) (vec_at 9 2))
    (bind (matrix_vector_product (sub_m (row_major 0 2 3) 0 2 0 1) (sub_v (vec_at 6 3) 0 1) (vec_at 9 2))
      (fun _ => matrix_vector_product_upd (sub_m (row_major 0 2 3) 0 2 1 2) (sub_v (vec_at 6 3) 1 2) (vec_at 9 2) (vec_at 9 2))) m98 /\
  agree (matrix_product (row_major 0 2 3) (row_major 6 3 1) (row_major 9 2 1))
    (bind (matrix_product (sub_m (row_major 0 2 3) 0 2 0 2) (sub_m (row_major 6 3 1) 0 2 0 1) (row_major 9 2 1))
      (fun _ => matrix_product_upd (sub_m (row_major 0 2 3) 0 2 2 1) (sub_m (row_major 6 3 1) 2 1 0 1) (row_major 9 2 1) (row_major 9 2 1))) m98 /\
  agree (symmetric_matrix_rank_k_update (row_major 0 2 3) (row_major 9 2 2) Lower)
    (bind (symmetric_matrix_rank_k_update (sub_m (row_major 0 2 3) 0 2 0 1) (row_major 9 2 2) Lower)
      (fun _ => symmetric_matrix_rank_k_update (sub_m (row_major 0 2 3) 0 2 1 2) (row_major 9 2 2) Lower)) m98.
Proof.
  pose (f := fv [fl 1 0; fl 1 0; fl 1 0]%Z). split; [|split].
  - apply (C98_gemv_columns F64 m98 (row_major 0 2 3) (vec_at 6 3) (vec_at 9 2) a98 f 1); try (simpl; lia); concrete.
  - apply (C98_gemm_inner F64 m98 (row_major 0 2 3) (row_major 6 3 1) (row_major 9 2 1) a98 (fm [[fl 1 0]; [fl 1 0]; [fl 1 0]]%Z) 2); try (simpl; lia); concrete.
  - apply (C98_syrk_columns F64 m98 (row_major 0 2 3) (row_major 9 2 2) Lower a98 (fm [[fl 0 0; fl 0 0]; [fl 0 0; fl 0 0]]%Z) 1); try (simpl; lia); concrete.
Qed.

(** * Lower triangular systems by blocks: solve the first block, subtract its contribution, solve the second *)
Theorem C98_trsv_lower : forall (O : ops) ty neg (m : mem O) divide A d B X a b k,
  negates neg -> k <= ext0 A -> fits ty (ext0 A) ->
  ext0 A = ext1 A -> vext B = ext0 A -> vext X = ext0 A ->
  mat_holds_on m A (stored Lower d) a -> vec_holds m B b -> vwritable X -> allocated m (vcells X) ->
  disjoint (mcells_on A (stored Lower d)) (vcells X) -> disjoint_or_aligned_v B X ->
  agree (triangular_matrix_vector_solve_with ty divide A Lower d B X)
    (bind (triangular_matrix_vector_solve_with ty divide (sub_m A 0 k 0 k) Lower d (sub_v B 0 k) (sub_v X 0 k)) (fun _ =>
     bind (matrix_vector_product_upd (scaled_m neg (sub_m A k (ext0 A - k) 0 k)) (sub_v X 0 k) (sub_v B k (ext0 A - k)) (sub_v X k (ext0 A - k))) (fun _ =>
     triangular_matrix_vector_solve_with ty divide (sub_m A k (ext0 A - k) k (ext0 A - k)) Lower d (sub_v X k (ext0 A - k)) (sub_v X k (ext0 A - k))))) m.
Proof. exact @trsv_blocks. Qed.
Print Assumptions C98_trsv_lower.
Theorem C98_trsm_left_lower : forall (O : ops) ty neg (m : mem O) A d B X a b k,
  negates neg -> k <= ext0 A -> fits ty (ext0 A) ->
  ext0 A = ext1 A -> ext0 B = ext0 A -> ext0 X = ext0 A -> ext1 X = ext1 B ->
  mat_holds_on m A (stored Lower d) a -> mat_holds m B b -> mwritable X -> allocated m (mcells X) ->
  disjoint (mcells_on A (stored Lower d)) (mcells X) -> disjoint_or_aligned_m B X ->
  agree (triangular_matrix_matrix_left_solve ty A Lower d B X)
    (bind (triangular_matrix_matrix_left_solve ty (sub_m A 0 k 0 k) Lower d (sub_m B 0 k 0 (ext1 B)) (sub_m X 0 k 0 (ext1 B))) (fun _ =>
     bind (matrix_product_upd (scaled_m neg (sub_m A k (ext0 A - k) 0 k)) (sub_m X 0 k 0 (ext1 B)) (sub_m B k (ext0 A - k) 0 (ext1 B)) (sub_m X k (ext0 A - k) 0 (ext1 B))) (fun _ =>
     triangular_matrix_matrix_left_solve ty (sub_m A k (ext0 A - k) k (ext0 A - k)) Lower d (sub_m X k (ext0 A - k) 0 (ext1 B)) (sub_m X k (ext0 A - k) 0 (ext1 B))))) m.
Proof. exact @trsm_blocks. Qed.
Print Assumptions C98_trsm_left_lower.
(** The factor -1 qualifies in IEEE-754 arithmetic, including infinities, NaN and signed zeros ... *)
Theorem C98_ieee_negates : forall prec emax (Hp : Prec_gt_0 prec) (He : Prec_lt_emax prec emax),
  @negates (ieee_ops prec emax Hp He) (Bopp Bone).
Proof. exact @ieee_negates. Qed.
Print Assumptions C98_ieee_negates.
(** ... and in every ring. *)
Theorem C98_ring_negates : forall O : ops, ring_laws O -> @negates O (sub zero one).
Proof. exact @ring_negates. Qed.
Print Assumptions C98_ring_negates.

Definition t98 : mem F64 := mem_of [fl 1 0; fl 0 0; fl 0 0; fl 1 53; fl 1 0; fl 0 0; fl 3 0; fl (-1) 53; fl 1 1;  fl 1 0; fl 1 0; fl 5 0;  fl 0 0; fl 0 0; fl 0 0]%Z.
Definition l98 : nat -> nat -> F64 := fm [[fl 1 0; fl 0 0; fl 0 0]; [fl 1 53; fl 1 0; fl 0 0]; [fl 3 0; fl (-1) 53; fl 1 1]]%Z.
Example C98_trsv_lower_case :
  let A : mat F64 := row_major 0 3 3 in let B : vec F64 := vec_at 9 3 in let X : vec F64 := vec_at 12 3 in
  agree (triangular_matrix_vector_solve_with U64 div A Lower Explicit B X)
    (bind (triangular_matrix_vector_solve_with U64 div (sub_m A 0 2 0 2) Lower Explicit (sub_v B 0 2) (sub_v X 0 2)) (fun _ =>
     bind (matrix_vector_product_upd (scaled_m (Bopp Bone : F64) (sub_m A 2 1 0 2)) (sub_v X 0 2) (sub_v B 2 1) (sub_v X 2 1)) (fun _ =>
     triangular_matrix_vector_solve_with U64 div (sub_m A 2 1 2 1) Lower Explicit (sub_v X 2 1) (sub_v X 2 1)))) t98.
Proof.
  intros A B X. apply (C98_trsv_lower F64 U64 (Bopp Bone) t98 div A Explicit B X l98 (fv [fl 1 0; fl 1 0; fl 5 0]%Z) 2);
    [apply C98_ieee_negates|simpl; lia|split; vm_compute; discriminate|concrete..].
Qed.
Example C98_trsm_left_lower_case :
  let A : mat F64 := row_major 0 3 3 in let B : mat F64 := row_major 9 3 1 in let X : mat F64 := col_major 12 3 1 in
  agree (triangular_matrix_matrix_left_solve U64 A Lower ImplicitUnit B X)
    (bind (triangular_matrix_matrix_left_solve U64 (sub_m A 0 1 0 1) Lower ImplicitUnit (sub_m B 0 1 0 1) (sub_m X 0 1 0 1)) (fun _ =>
     bind (matrix_product_upd (scaled_m (Bopp Bone : F64) (sub_m A 1 2 0 1)) (sub_m X 0 1 0 1) (sub_m B 1 2 0 1) (sub_m X 1 2 0 1)) (fun _ =>
     triangular_matrix_matrix_left_solve U64 (sub_m A 1 2 1 2) Lower ImplicitUnit (sub_m X 1 2 0 1) (sub_m X 1 2 0 1)))) t98.
Proof.
  intros A B X. apply (C98_trsm_left_lower F64 U64 (Bopp Bone) t98 A ImplicitUnit B X l98 (fm [[fl 1 0]; [fl 1 0]; [fl 5 0]]%Z) 1);
    [apply C98_ieee_negates|simpl; lia|split; vm_compute; discriminate|concrete..].
Qed.
(** Not so for an upper triangle: with rows (1, -2^53, 2^53), (0, 1, 0), (0, 0, 1) and right-hand side all 1 the first
    unknown is (1 + 2^53) - 2^53 = 0, but (1 - 2^53) + 2^53 = 1 when the last unknown is eliminated first. *)
Example C98_upper_differs :
  let m : mem F64 := mem_of [fl 1 0; fl (-1) 53; fl 1 53; fl 0 0; fl 1 0; fl 0 0; fl 0 0; fl 0 0; fl 1 0;  fl 1 0; fl 1 0; fl 1 0;  fl 0 0; fl 0 0; fl 0 0]%Z in
  let A : mat F64 := row_major 0 3 3 in let B : vec F64 := vec_at 9 3 in let X : vec F64 := vec_at 12 3 in
  let at12 (r : res F64 unit) := match r with Ok _ m' => option_map (fun v : binary_float 53 1024 => B2SF v) (m' 12) | Err _ _ => None end in
  at12 (run (triangular_matrix_vector_solve_with U64 div A Upper Explicit B X) m) = Some (B2SF (fl 0 0 : binary_float 53 1024)) /\
  at12 (run (bind (triangular_matrix_vector_solve_with U64 div (sub_m A 2 1 2 1) Upper Explicit (sub_v B 2 1) (sub_v X 2 1)) (fun _ =>
     bind (matrix_vector_product_upd (scaled_m (Bopp Bone : F64) (sub_m A 0 2 2 1)) (sub_v X 2 1) (sub_v B 0 2) (sub_v X 0 2)) (fun _ =>
     triangular_matrix_vector_solve_with U64 div (sub_m A 0 2 0 2) Upper Explicit (sub_v X 0 2) (sub_v X 0 2)))) m) = Some (B2SF (fl 1 0 : binary_float 53 1024)).
Proof. split; vm_compute; reflexivity. Qed.

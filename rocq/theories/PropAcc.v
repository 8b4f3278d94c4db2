(** C96: which cells an algorithm loads and stores, and in which order, is determined by the views it is given, not by the
    values of the elements, the factors of scaled views or the element type. *)
From Coq Require Import List Arith NArith ZArith Bool Lia.
From Verif Require Import Mem Scalar View Spec Idx Blas1 Blas2 Blas3 Norm Par Red KK KKNorm SpecRel Acc SpecAcc PfAcc PfAcc2 Inst.
Import ListNotations.
Set Implicit Arguments.

(** * Vectors *)
Theorem C96_copy_1 : forall (O1 O2 : ops) (x1 : vec O1) (x2 : vec O2) (y1 : vec O1) (y2 : vec O2),
  same_view_v x1 x2 -> same_view_v y1 y2 ->
  same_accesses (copy_1 x1 y1) (copy_1 x2 y2).
Proof. exact @acc_copy_1. Qed.
Print Assumptions C96_copy_1.
Theorem C96_copy_2 : forall (O1 O2 : ops) (x1 : mat O1) (x2 : mat O2) (y1 : mat O1) (y2 : mat O2),
  same_view_m x1 x2 -> same_view_m y1 y2 ->
  same_accesses (copy_2 x1 y1) (copy_2 x2 y2).
Proof. exact @acc_copy_2. Qed.
Print Assumptions C96_copy_2.
Theorem C96_swap_1 : forall (O1 O2 : ops) (x1 : vec O1) (x2 : vec O2) (y1 : vec O1) (y2 : vec O2),
  same_view_v x1 x2 -> same_view_v y1 y2 ->
  same_accesses (swap_1 x1 y1) (swap_1 x2 y2).
Proof. exact @acc_swap_1. Qed.
Print Assumptions C96_swap_1.
Theorem C96_swap_2 : forall (O1 O2 : ops) (x1 : mat O1) (x2 : mat O2) (y1 : mat O1) (y2 : mat O2),
  same_view_m x1 x2 -> same_view_m y1 y2 ->
  same_accesses (swap_2 x1 y1) (swap_2 x2 y2).
Proof. exact @acc_swap_2. Qed.
Print Assumptions C96_swap_2.
Theorem C96_scale_1 : forall (O1 O2 : ops) (alpha1 : car O1) (alpha2 : car O2) (x1 : vec O1) (x2 : vec O2),
  same_view_v x1 x2 ->
  same_accesses (scale_1 alpha1 x1) (scale_1 alpha2 x2).
Proof. exact @acc_scale_1. Qed.
Print Assumptions C96_scale_1.
Theorem C96_scale_2 : forall (O1 O2 : ops) (alpha1 : car O1) (alpha2 : car O2) (A1 : mat O1) (A2 : mat O2),
  same_view_m A1 A2 ->
  same_accesses (scale_2 alpha1 A1) (scale_2 alpha2 A2).
Proof. exact @acc_scale_2. Qed.
Print Assumptions C96_scale_2.
Theorem C96_add_1 : forall (O1 O2 : ops) (x1 : vec O1) (x2 : vec O2) (y1 : vec O1) (y2 : vec O2) (z1 : vec O1) (z2 : vec O2),
  same_view_v x1 x2 -> same_view_v y1 y2 -> same_view_v z1 z2 ->
  same_accesses (add_1 x1 y1 z1) (add_1 x2 y2 z2).
Proof. exact @acc_add_1. Qed.
Print Assumptions C96_add_1.
Theorem C96_add_2 : forall (O1 O2 : ops) (x1 : mat O1) (x2 : mat O2) (y1 : mat O1) (y2 : mat O2) (z1 : mat O1) (z2 : mat O2),
  same_view_m x1 x2 -> same_view_m y1 y2 -> same_view_m z1 z2 ->
  same_accesses (add_2 x1 y1 z1) (add_2 x2 y2 z2).
Proof. exact @acc_add_2. Qed.
Print Assumptions C96_add_2.
Theorem C96_dot : forall (O1 O2 : ops) (v11 : vec O1) (v12 : vec O2) (v21 : vec O1) (v22 : vec O2) (init1 : car O1) (init2 : car O2),
  same_view_v v11 v12 -> same_view_v v21 v22 ->
  same_accesses (dot v11 v21 init1) (dot v12 v22 init2).
Proof. exact @acc_dot. Qed.
Print Assumptions C96_dot.
Theorem C96_dotc : forall (O1 O2 : ops) (v11 : vec O1) (v12 : vec O2) (v21 : vec O1) (v22 : vec O2) (init1 : car O1) (init2 : car O2) (fix_nc : bool) (noncomplex : bool),
  same_view_v v11 v12 -> same_view_v v21 v22 ->
  same_accesses (dotc fix_nc noncomplex v11 v21 init1) (dotc fix_nc noncomplex v12 v22 init2).
Proof. exact @acc_dotc. Qed.
Print Assumptions C96_dotc.
Theorem C96_dot_noinit : forall (O1 O2 : ops) (v11 : vec O1) (v12 : vec O2) (v21 : vec O1) (v22 : vec O2),
  same_view_v v11 v12 -> same_view_v v21 v22 ->
  same_accesses (dot_noinit v11 v21) (dot_noinit v12 v22).
Proof. exact @acc_dot_noinit. Qed.
Print Assumptions C96_dot_noinit.
Theorem C96_dotc_noinit : forall (O1 O2 : ops) (v11 : vec O1) (v12 : vec O2) (v21 : vec O1) (v22 : vec O2) (fix_nc : bool) (noncomplex : bool),
  same_view_v v11 v12 -> same_view_v v21 v22 ->
  same_accesses (dotc_noinit fix_nc noncomplex v11 v21) (dotc_noinit fix_nc noncomplex v12 v22).
Proof. exact @acc_dotc_noinit. Qed.
Print Assumptions C96_dotc_noinit.
Theorem C96_apply_givens_rotation : forall (O1 O2 : ops) (x1 : vec O1) (x2 : vec O2) (y1 : vec O1) (y2 : vec O2) (c1 : car O1) (c2 : car O2) (s1 : car O1) (s2 : car O2),
  same_view_v x1 x2 -> same_view_v y1 y2 ->
  same_accesses (apply_givens_rotation x1 y1 c1 s1) (apply_givens_rotation x2 y2 c2 s2).
Proof. exact @acc_apply_givens_rotation. Qed.
Print Assumptions C96_apply_givens_rotation.
Theorem C96_apply_givens_rotation_c : forall (O1 O2 : ops) (x1 : vec O1) (x2 : vec O2) (y1 : vec O1) (y2 : vec O2) (c1 : car O1) (c2 : car O2) (s1 : car O1) (s2 : car O2),
  same_view_v x1 x2 -> same_view_v y1 y2 ->
  same_accesses (apply_givens_rotation_c x1 y1 c1 s1) (apply_givens_rotation_c x2 y2 c2 s2).
Proof. exact @acc_apply_givens_rotation_c. Qed.
Print Assumptions C96_apply_givens_rotation_c.
(** * Matrix-vector algorithms *)
Theorem C96_matrix_vector_product : forall (O1 O2 : ops) (A1 : mat O1) (A2 : mat O2) (x1 : vec O1) (x2 : vec O2) (y1 : vec O1) (y2 : vec O2),
  same_view_m A1 A2 -> same_view_v x1 x2 -> same_view_v y1 y2 ->
  same_accesses (matrix_vector_product A1 x1 y1) (matrix_vector_product A2 x2 y2).
Proof. exact @acc_matrix_vector_product. Qed.
Print Assumptions C96_matrix_vector_product.
Theorem C96_matrix_vector_product_upd : forall (O1 O2 : ops) (A1 : mat O1) (A2 : mat O2) (x1 : vec O1) (x2 : vec O2) (y1 : vec O1) (y2 : vec O2) (z1 : vec O1) (z2 : vec O2),
  same_view_m A1 A2 -> same_view_v x1 x2 -> same_view_v y1 y2 -> same_view_v z1 z2 ->
  same_accesses (matrix_vector_product_upd A1 x1 y1 z1) (matrix_vector_product_upd A2 x2 y2 z2).
Proof. exact @acc_matrix_vector_product_upd. Qed.
Print Assumptions C96_matrix_vector_product_upd.
Theorem C96_symmetric_matrix_vector_product : forall (O1 O2 : ops) (A1 : mat O1) (A2 : mat O2) (x1 : vec O1) (x2 : vec O2) (y1 : vec O1) (y2 : vec O2) (t : triangle),
  same_view_m A1 A2 -> same_view_v x1 x2 -> same_view_v y1 y2 ->
  same_accesses (symmetric_matrix_vector_product A1 t x1 y1) (symmetric_matrix_vector_product A2 t x2 y2).
Proof. exact @acc_symmetric_matrix_vector_product. Qed.
Print Assumptions C96_symmetric_matrix_vector_product.
Theorem C96_symmetric_matrix_vector_product_upd : forall (O1 O2 : ops) (A1 : mat O1) (A2 : mat O2) (x1 : vec O1) (x2 : vec O2) (y1 : vec O1) (y2 : vec O2) (z1 : vec O1) (z2 : vec O2) (t : triangle),
  same_view_m A1 A2 -> same_view_v x1 x2 -> same_view_v y1 y2 -> same_view_v z1 z2 ->
  same_accesses (symmetric_matrix_vector_product_upd A1 t x1 y1 z1) (symmetric_matrix_vector_product_upd A2 t x2 y2 z2).
Proof. exact @acc_symmetric_matrix_vector_product_upd. Qed.
Print Assumptions C96_symmetric_matrix_vector_product_upd.
Theorem C96_hermitian_matrix_vector_product : forall (O1 O2 : ops) (A1 : mat O1) (A2 : mat O2) (x1 : vec O1) (x2 : vec O2) (y1 : vec O1) (y2 : vec O2) (t : triangle),
  same_view_m A1 A2 -> same_view_v x1 x2 -> same_view_v y1 y2 ->
  same_accesses (hermitian_matrix_vector_product A1 t x1 y1) (hermitian_matrix_vector_product A2 t x2 y2).
Proof. exact @acc_hermitian_matrix_vector_product. Qed.
Print Assumptions C96_hermitian_matrix_vector_product.
Theorem C96_hermitian_matrix_vector_product_upd : forall (O1 O2 : ops) (A1 : mat O1) (A2 : mat O2) (x1 : vec O1) (x2 : vec O2) (y1 : vec O1) (y2 : vec O2) (z1 : vec O1) (z2 : vec O2) (t : triangle),
  same_view_m A1 A2 -> same_view_v x1 x2 -> same_view_v y1 y2 -> same_view_v z1 z2 ->
  same_accesses (hermitian_matrix_vector_product_upd A1 t x1 y1 z1) (hermitian_matrix_vector_product_upd A2 t x2 y2 z2).
Proof. exact @acc_hermitian_matrix_vector_product_upd. Qed.
Print Assumptions C96_hermitian_matrix_vector_product_upd.
Theorem C96_triangular_matrix_vector_product : forall (O1 O2 : ops) (A1 : mat O1) (A2 : mat O2) (x1 : vec O1) (x2 : vec O2) (y1 : vec O1) (y2 : vec O2) (t : triangle) (d : diagonal),
  same_view_m A1 A2 -> same_view_v x1 x2 -> same_view_v y1 y2 ->
  same_accesses (triangular_matrix_vector_product A1 t d x1 y1) (triangular_matrix_vector_product A2 t d x2 y2).
Proof. exact @acc_triangular_matrix_vector_product. Qed.
Print Assumptions C96_triangular_matrix_vector_product.
Theorem C96_triangular_matrix_vector_product_upd : forall (O1 O2 : ops) (A1 : mat O1) (A2 : mat O2) (x1 : vec O1) (x2 : vec O2) (y1 : vec O1) (y2 : vec O2) (z1 : vec O1) (z2 : vec O2) (t : triangle) (d : diagonal),
  same_view_m A1 A2 -> same_view_v x1 x2 -> same_view_v y1 y2 -> same_view_v z1 z2 ->
  same_accesses (triangular_matrix_vector_product_upd A1 t d x1 y1 z1) (triangular_matrix_vector_product_upd A2 t d x2 y2 z2).
Proof. exact @acc_triangular_matrix_vector_product_upd. Qed.
Print Assumptions C96_triangular_matrix_vector_product_upd.
Theorem C96_triangular_matrix_vector_product_inplace : forall (O1 O2 : ops) (A1 : mat O1) (A2 : mat O2) (y1 : vec O1) (y2 : vec O2) (t : triangle) (d : diagonal),
  same_view_m A1 A2 -> same_view_v y1 y2 ->
  same_accesses (triangular_matrix_vector_product_inplace A1 t d y1) (triangular_matrix_vector_product_inplace A2 t d y2).
Proof. exact @acc_triangular_matrix_vector_product_inplace. Qed.
Print Assumptions C96_triangular_matrix_vector_product_inplace.
Theorem C96_triangular_matrix_vector_solve_with : forall (O1 O2 : ops) (divide1 : O1 -> O1 -> O1) (divide2 : O2 -> O2 -> O2) (A1 : mat O1) (A2 : mat O2) (b1 : vec O1) (b2 : vec O2) (x1 : vec O1) (x2 : vec O2) (ty : ity) (t : triangle) (d : diagonal),
  same_view_m A1 A2 -> same_view_v b1 b2 -> same_view_v x1 x2 ->
  same_accesses (triangular_matrix_vector_solve_with ty divide1 A1 t d b1 x1) (triangular_matrix_vector_solve_with ty divide2 A2 t d b2 x2).
Proof. exact @acc_triangular_matrix_vector_solve_with. Qed.
Print Assumptions C96_triangular_matrix_vector_solve_with.
Theorem C96_triangular_matrix_vector_solve : forall (O1 O2 : ops) (A1 : mat O1) (A2 : mat O2) (b1 : vec O1) (b2 : vec O2) (x1 : vec O1) (x2 : vec O2) (ty : ity) (t : triangle) (d : diagonal),
  same_view_m A1 A2 -> same_view_v b1 b2 -> same_view_v x1 x2 ->
  same_accesses (triangular_matrix_vector_solve ty A1 t d b1 x1) (triangular_matrix_vector_solve ty A2 t d b2 x2).
Proof. exact @acc_triangular_matrix_vector_solve. Qed.
Print Assumptions C96_triangular_matrix_vector_solve.
Theorem C96_matrix_rank_1_update : forall (O1 O2 : ops) (x1 : vec O1) (x2 : vec O2) (y1 : vec O1) (y2 : vec O2) (A1 : mat O1) (A2 : mat O2),
  same_view_v x1 x2 -> same_view_v y1 y2 -> same_view_m A1 A2 ->
  same_accesses (matrix_rank_1_update x1 y1 A1) (matrix_rank_1_update x2 y2 A2).
Proof. exact @acc_matrix_rank_1_update. Qed.
Print Assumptions C96_matrix_rank_1_update.
Theorem C96_matrix_rank_1_update_c : forall (O1 O2 : ops) (x1 : vec O1) (x2 : vec O2) (y1 : vec O1) (y2 : vec O2) (A1 : mat O1) (A2 : mat O2) (fix_nc : bool) (noncomplex : bool),
  same_view_v x1 x2 -> same_view_v y1 y2 -> same_view_m A1 A2 ->
  same_accesses (matrix_rank_1_update_c fix_nc noncomplex x1 y1 A1) (matrix_rank_1_update_c fix_nc noncomplex x2 y2 A2).
Proof. exact @acc_matrix_rank_1_update_c. Qed.
Print Assumptions C96_matrix_rank_1_update_c.
Theorem C96_symmetric_matrix_rank_1_update_alpha : forall (O1 O2 : ops) (alpha1 : car O1) (alpha2 : car O2) (x1 : vec O1) (x2 : vec O2) (A1 : mat O1) (A2 : mat O2) (t : triangle),
  same_view_v x1 x2 -> same_view_m A1 A2 ->
  same_accesses (symmetric_matrix_rank_1_update_alpha alpha1 x1 A1 t) (symmetric_matrix_rank_1_update_alpha alpha2 x2 A2 t).
Proof. exact @acc_symmetric_matrix_rank_1_update_alpha. Qed.
Print Assumptions C96_symmetric_matrix_rank_1_update_alpha.
Theorem C96_symmetric_matrix_rank_1_update : forall (O1 O2 : ops) (x1 : vec O1) (x2 : vec O2) (A1 : mat O1) (A2 : mat O2) (t : triangle),
  same_view_v x1 x2 -> same_view_m A1 A2 ->
  same_accesses (symmetric_matrix_rank_1_update x1 A1 t) (symmetric_matrix_rank_1_update x2 A2 t).
Proof. exact @acc_symmetric_matrix_rank_1_update. Qed.
Print Assumptions C96_symmetric_matrix_rank_1_update.
Theorem C96_hermitian_matrix_rank_1_update_alpha : forall (O1 O2 : ops) (alpha1 : car O1) (alpha2 : car O2) (x1 : vec O1) (x2 : vec O2) (A1 : mat O1) (A2 : mat O2) (t : triangle),
  same_view_v x1 x2 -> same_view_m A1 A2 ->
  same_accesses (hermitian_matrix_rank_1_update_alpha alpha1 x1 A1 t) (hermitian_matrix_rank_1_update_alpha alpha2 x2 A2 t).
Proof. exact @acc_hermitian_matrix_rank_1_update_alpha. Qed.
Print Assumptions C96_hermitian_matrix_rank_1_update_alpha.
Theorem C96_hermitian_matrix_rank_1_update : forall (O1 O2 : ops) (x1 : vec O1) (x2 : vec O2) (A1 : mat O1) (A2 : mat O2) (t : triangle),
  same_view_v x1 x2 -> same_view_m A1 A2 ->
  same_accesses (hermitian_matrix_rank_1_update x1 A1 t) (hermitian_matrix_rank_1_update x2 A2 t).
Proof. exact @acc_hermitian_matrix_rank_1_update. Qed.
Print Assumptions C96_hermitian_matrix_rank_1_update.
Theorem C96_symmetric_matrix_rank_2_update : forall (O1 O2 : ops) (x1 : vec O1) (x2 : vec O2) (y1 : vec O1) (y2 : vec O2) (A1 : mat O1) (A2 : mat O2) (t : triangle),
  same_view_v x1 x2 -> same_view_v y1 y2 -> same_view_m A1 A2 ->
  same_accesses (symmetric_matrix_rank_2_update x1 y1 A1 t) (symmetric_matrix_rank_2_update x2 y2 A2 t).
Proof. exact @acc_symmetric_matrix_rank_2_update. Qed.
Print Assumptions C96_symmetric_matrix_rank_2_update.
Theorem C96_hermitian_matrix_rank_2_update : forall (O1 O2 : ops) (x1 : vec O1) (x2 : vec O2) (y1 : vec O1) (y2 : vec O2) (A1 : mat O1) (A2 : mat O2) (t : triangle),
  same_view_v x1 x2 -> same_view_v y1 y2 -> same_view_m A1 A2 ->
  same_accesses (hermitian_matrix_rank_2_update x1 y1 A1 t) (hermitian_matrix_rank_2_update x2 y2 A2 t).
Proof. exact @acc_hermitian_matrix_rank_2_update. Qed.
Print Assumptions C96_hermitian_matrix_rank_2_update.
(** * Matrix-matrix algorithms *)
Theorem C96_matrix_product : forall (O1 O2 : ops) (A1 : mat O1) (A2 : mat O2) (B1 : mat O1) (B2 : mat O2) (C1 : mat O1) (C2 : mat O2),
  same_view_m A1 A2 -> same_view_m B1 B2 -> same_view_m C1 C2 ->
  same_accesses (matrix_product A1 B1 C1) (matrix_product A2 B2 C2).
Proof. exact @acc_matrix_product. Qed.
Print Assumptions C96_matrix_product.
Theorem C96_matrix_product_upd : forall (O1 O2 : ops) (A1 : mat O1) (A2 : mat O2) (B1 : mat O1) (B2 : mat O2) (E1 : mat O1) (E2 : mat O2) (C1 : mat O1) (C2 : mat O2),
  same_view_m A1 A2 -> same_view_m B1 B2 -> same_view_m E1 E2 -> same_view_m C1 C2 ->
  same_accesses (matrix_product_upd A1 B1 E1 C1) (matrix_product_upd A2 B2 E2 C2).
Proof. exact @acc_matrix_product_upd. Qed.
Print Assumptions C96_matrix_product_upd.
Theorem C96_triangular_matrix_product_left : forall (O1 O2 : ops) (A1 : mat O1) (A2 : mat O2) (B1 : mat O1) (B2 : mat O2) (C1 : mat O1) (C2 : mat O2) (ty : ity) (t : triangle) (d : diagonal),
  same_view_m A1 A2 -> same_view_m B1 B2 -> same_view_m C1 C2 ->
  same_accesses (triangular_matrix_product_left ty A1 t d B1 C1) (triangular_matrix_product_left ty A2 t d B2 C2).
Proof. exact @acc_triangular_matrix_product_left. Qed.
Print Assumptions C96_triangular_matrix_product_left.
Theorem C96_triangular_matrix_product_right : forall (O1 O2 : ops) (B1 : mat O1) (B2 : mat O2) (A1 : mat O1) (A2 : mat O2) (C1 : mat O1) (C2 : mat O2) (ty : ity) (t : triangle) (d : diagonal),
  same_view_m B1 B2 -> same_view_m A1 A2 -> same_view_m C1 C2 ->
  same_accesses (triangular_matrix_product_right ty B1 A1 t d C1) (triangular_matrix_product_right ty B2 A2 t d C2).
Proof. exact @acc_triangular_matrix_product_right. Qed.
Print Assumptions C96_triangular_matrix_product_right.
Theorem C96_triangular_matrix_left_product : forall (O1 O2 : ops) (A1 : mat O1) (A2 : mat O2) (C1 : mat O1) (C2 : mat O2) (t : triangle) (d : diagonal),
  same_view_m A1 A2 -> same_view_m C1 C2 ->
  same_accesses (triangular_matrix_left_product A1 t d C1) (triangular_matrix_left_product A2 t d C2).
Proof. exact @acc_triangular_matrix_left_product. Qed.
Print Assumptions C96_triangular_matrix_left_product.
Theorem C96_triangular_matrix_right_product : forall (O1 O2 : ops) (A1 : mat O1) (A2 : mat O2) (C1 : mat O1) (C2 : mat O2) (t : triangle) (d : diagonal),
  same_view_m A1 A2 -> same_view_m C1 C2 ->
  same_accesses (triangular_matrix_right_product A1 t d C1) (triangular_matrix_right_product A2 t d C2).
Proof. exact @acc_triangular_matrix_right_product. Qed.
Print Assumptions C96_triangular_matrix_right_product.
Theorem C96_symmetric_matrix_product_left : forall (O1 O2 : ops) (A1 : mat O1) (A2 : mat O2) (B1 : mat O1) (B2 : mat O2) (C1 : mat O1) (C2 : mat O2) (t : triangle),
  same_view_m A1 A2 -> same_view_m B1 B2 -> same_view_m C1 C2 ->
  same_accesses (symmetric_matrix_product_left A1 t B1 C1) (symmetric_matrix_product_left A2 t B2 C2).
Proof. exact @acc_symmetric_matrix_product_left. Qed.
Print Assumptions C96_symmetric_matrix_product_left.
Theorem C96_symmetric_matrix_product_right : forall (O1 O2 : ops) (B1 : mat O1) (B2 : mat O2) (A1 : mat O1) (A2 : mat O2) (C1 : mat O1) (C2 : mat O2) (t : triangle),
  same_view_m B1 B2 -> same_view_m A1 A2 -> same_view_m C1 C2 ->
  same_accesses (symmetric_matrix_product_right B1 A1 t C1) (symmetric_matrix_product_right B2 A2 t C2).
Proof. exact @acc_symmetric_matrix_product_right. Qed.
Print Assumptions C96_symmetric_matrix_product_right.
Theorem C96_hermitian_matrix_product_left : forall (O1 O2 : ops) (A1 : mat O1) (A2 : mat O2) (B1 : mat O1) (B2 : mat O2) (C1 : mat O1) (C2 : mat O2) (t : triangle),
  same_view_m A1 A2 -> same_view_m B1 B2 -> same_view_m C1 C2 ->
  same_accesses (hermitian_matrix_product_left A1 t B1 C1) (hermitian_matrix_product_left A2 t B2 C2).
Proof. exact @acc_hermitian_matrix_product_left. Qed.
Print Assumptions C96_hermitian_matrix_product_left.
Theorem C96_hermitian_matrix_product_right : forall (O1 O2 : ops) (B1 : mat O1) (B2 : mat O2) (A1 : mat O1) (A2 : mat O2) (C1 : mat O1) (C2 : mat O2) (t : triangle),
  same_view_m B1 B2 -> same_view_m A1 A2 -> same_view_m C1 C2 ->
  same_accesses (hermitian_matrix_product_right B1 A1 t C1) (hermitian_matrix_product_right B2 A2 t C2).
Proof. exact @acc_hermitian_matrix_product_right. Qed.
Print Assumptions C96_hermitian_matrix_product_right.
Theorem C96_symmetric_matrix_rank_k_update_alpha : forall (O1 O2 : ops) (alpha1 : car O1) (alpha2 : car O2) (A1 : mat O1) (A2 : mat O2) (C1 : mat O1) (C2 : mat O2) (t : triangle),
  same_view_m A1 A2 -> same_view_m C1 C2 ->
  same_accesses (symmetric_matrix_rank_k_update_alpha alpha1 A1 C1 t) (symmetric_matrix_rank_k_update_alpha alpha2 A2 C2 t).
Proof. exact @acc_symmetric_matrix_rank_k_update_alpha. Qed.
Print Assumptions C96_symmetric_matrix_rank_k_update_alpha.
Theorem C96_symmetric_matrix_rank_k_update : forall (O1 O2 : ops) (A1 : mat O1) (A2 : mat O2) (C1 : mat O1) (C2 : mat O2) (t : triangle),
  same_view_m A1 A2 -> same_view_m C1 C2 ->
  same_accesses (symmetric_matrix_rank_k_update A1 C1 t) (symmetric_matrix_rank_k_update A2 C2 t).
Proof. exact @acc_symmetric_matrix_rank_k_update. Qed.
Print Assumptions C96_symmetric_matrix_rank_k_update.
Theorem C96_hermitian_matrix_rank_k_update_alpha : forall (O1 O2 : ops) (alpha1 : car O1) (alpha2 : car O2) (A1 : mat O1) (A2 : mat O2) (C1 : mat O1) (C2 : mat O2) (t : triangle),
  same_view_m A1 A2 -> same_view_m C1 C2 ->
  same_accesses (hermitian_matrix_rank_k_update_alpha alpha1 A1 C1 t) (hermitian_matrix_rank_k_update_alpha alpha2 A2 C2 t).
Proof. exact @acc_hermitian_matrix_rank_k_update_alpha. Qed.
Print Assumptions C96_hermitian_matrix_rank_k_update_alpha.
Theorem C96_hermitian_matrix_rank_k_update : forall (O1 O2 : ops) (A1 : mat O1) (A2 : mat O2) (C1 : mat O1) (C2 : mat O2) (t : triangle),
  same_view_m A1 A2 -> same_view_m C1 C2 ->
  same_accesses (hermitian_matrix_rank_k_update A1 C1 t) (hermitian_matrix_rank_k_update A2 C2 t).
Proof. exact @acc_hermitian_matrix_rank_k_update. Qed.
Print Assumptions C96_hermitian_matrix_rank_k_update.
Theorem C96_symmetric_matrix_rank_2k_update : forall (O1 O2 : ops) (A1 : mat O1) (A2 : mat O2) (B1 : mat O1) (B2 : mat O2) (C1 : mat O1) (C2 : mat O2) (t : triangle),
  same_view_m A1 A2 -> same_view_m B1 B2 -> same_view_m C1 C2 ->
  same_accesses (symmetric_matrix_rank_2k_update A1 B1 C1 t) (symmetric_matrix_rank_2k_update A2 B2 C2 t).
Proof. exact @acc_symmetric_matrix_rank_2k_update. Qed.
Print Assumptions C96_symmetric_matrix_rank_2k_update.
Theorem C96_hermitian_matrix_rank_2k_update : forall (O1 O2 : ops) (A1 : mat O1) (A2 : mat O2) (B1 : mat O1) (B2 : mat O2) (C1 : mat O1) (C2 : mat O2) (t : triangle),
  same_view_m A1 A2 -> same_view_m B1 B2 -> same_view_m C1 C2 ->
  same_accesses (hermitian_matrix_rank_2k_update A1 B1 C1 t) (hermitian_matrix_rank_2k_update A2 B2 C2 t).
Proof. exact @acc_hermitian_matrix_rank_2k_update. Qed.
Print Assumptions C96_hermitian_matrix_rank_2k_update.
Theorem C96_triangular_matrix_matrix_left_solve : forall (O1 O2 : ops) (A1 : mat O1) (A2 : mat O2) (B1 : mat O1) (B2 : mat O2) (X1 : mat O1) (X2 : mat O2) (ty : ity) (t : triangle) (d : diagonal),
  same_view_m A1 A2 -> same_view_m B1 B2 -> same_view_m X1 X2 ->
  same_accesses (triangular_matrix_matrix_left_solve ty A1 t d B1 X1) (triangular_matrix_matrix_left_solve ty A2 t d B2 X2).
Proof. exact @acc_triangular_matrix_matrix_left_solve. Qed.
Print Assumptions C96_triangular_matrix_matrix_left_solve.
Theorem C96_triangular_matrix_matrix_right_solve : forall (O1 O2 : ops) (A1 : mat O1) (A2 : mat O2) (B1 : mat O1) (B2 : mat O2) (X1 : mat O1) (X2 : mat O2) (ty : ity) (t : triangle) (d : diagonal),
  same_view_m A1 A2 -> same_view_m B1 B2 -> same_view_m X1 X2 ->
  same_accesses (triangular_matrix_matrix_right_solve ty A1 t d B1 X1) (triangular_matrix_matrix_right_solve ty A2 t d B2 X2).
Proof. exact @acc_triangular_matrix_matrix_right_solve. Qed.
Print Assumptions C96_triangular_matrix_matrix_right_solve.
Theorem C96_triangular_matrix_matrix_solve : forall (O1 O2 : ops) (A1 : mat O1) (A2 : mat O2) (B1 : mat O1) (B2 : mat O2) (X1 : mat O1) (X2 : mat O2) (ty : ity) (t : triangle) (d : diagonal) (s : side),
  same_view_m A1 A2 -> same_view_m B1 B2 -> same_view_m X1 X2 ->
  same_accesses (triangular_matrix_matrix_solve ty A1 t d s B1 X1) (triangular_matrix_matrix_solve ty A2 t d s B2 X2).
Proof. exact @acc_triangular_matrix_matrix_solve. Qed.
Print Assumptions C96_triangular_matrix_matrix_solve.
(** * Norms *)
Theorem C96_vector_abs_sum : forall (O1 O2 : ops) (F1 F2 : rops) (M1 : mags O1 F1) (M2 : mags O2 F2) (v1 : vec O1) (v2 : vec O2) (init1 : rcar F1) (init2 : rcar F2),
  arithmetic M1 = arithmetic M2 -> same_view_v v1 v2 ->
  same_accesses (vector_abs_sum M1 v1 init1) (vector_abs_sum M2 v2 init2).
Proof. exact @acc_vector_abs_sum. Qed.
Print Assumptions C96_vector_abs_sum.
Theorem C96_vector_abs_sum_noinit : forall (O1 O2 : ops) (F1 F2 : rops) (M1 : mags O1 F1) (M2 : mags O2 F2) (v1 : vec O1) (v2 : vec O2),
  arithmetic M1 = arithmetic M2 -> same_view_v v1 v2 ->
  same_accesses (vector_abs_sum_noinit M1 v1) (vector_abs_sum_noinit M2 v2).
Proof. exact @acc_vector_abs_sum_noinit. Qed.
Print Assumptions C96_vector_abs_sum_noinit.
Theorem C96_matrix_frob_norm : forall (O1 O2 : ops) (F1 F2 : rops) (M1 : mags O1 F1) (M2 : mags O2 F2) (A1 : mat O1) (A2 : mat O2) (init1 : rcar F1) (init2 : rcar F2),
  same_view_m A1 A2 ->
  same_accesses (matrix_frob_norm M1 A1 init1) (matrix_frob_norm M2 A2 init2).
Proof. exact @acc_matrix_frob_norm. Qed.
Print Assumptions C96_matrix_frob_norm.
Theorem C96_matrix_frob_norm_noinit : forall (O1 O2 : ops) (F1 F2 : rops) (M1 : mags O1 F1) (M2 : mags O2 F2) (A1 : mat O1) (A2 : mat O2),
  same_view_m A1 A2 ->
  same_accesses (matrix_frob_norm_noinit M1 A1) (matrix_frob_norm_noinit M2 A2).
Proof. exact @acc_matrix_frob_norm_noinit. Qed.
Print Assumptions C96_matrix_frob_norm_noinit.
Theorem C96_matrix_inf_norm : forall (O1 O2 : ops) (F1 F2 : rops) (M1 : mags O1 F1) (M2 : mags O2 F2) (A1 : mat O1) (A2 : mat O2) (init1 : rcar F1) (init2 : rcar F2),
  same_view_m A1 A2 ->
  same_accesses (matrix_inf_norm M1 A1 init1) (matrix_inf_norm M2 A2 init2).
Proof. exact @acc_matrix_inf_norm. Qed.
Print Assumptions C96_matrix_inf_norm.
Theorem C96_matrix_inf_norm_noinit : forall (O1 O2 : ops) (F1 F2 : rops) (M1 : mags O1 F1) (M2 : mags O2 F2) (A1 : mat O1) (A2 : mat O2),
  same_view_m A1 A2 ->
  same_accesses (matrix_inf_norm_noinit M1 A1) (matrix_inf_norm_noinit M2 A2).
Proof. exact @acc_matrix_inf_norm_noinit. Qed.
Print Assumptions C96_matrix_inf_norm_noinit.
Theorem C96_matrix_one_norm : forall (O1 O2 : ops) (F1 F2 : rops) (M1 : mags O1 F1) (M2 : mags O2 F2) (A1 : mat O1) (A2 : mat O2) (init1 : rcar F1) (init2 : rcar F2),
  same_view_m A1 A2 ->
  same_accesses (matrix_one_norm M1 A1 init1) (matrix_one_norm M2 A2 init2).
Proof. exact @acc_matrix_one_norm. Qed.
Print Assumptions C96_matrix_one_norm.
Theorem C96_matrix_one_norm_noinit : forall (O1 O2 : ops) (F1 F2 : rops) (M1 : mags O1 F1) (M2 : mags O2 F2) (A1 : mat O1) (A2 : mat O2),
  same_view_m A1 A2 ->
  same_accesses (matrix_one_norm_noinit M1 A1) (matrix_one_norm_noinit M2 A2).
Proof. exact @acc_matrix_one_norm_noinit. Qed.
Print Assumptions C96_matrix_one_norm_noinit.
(** * Kokkos back end *)
Theorem C96_kk_matrix_rank_1_update : forall (O1 O2 : ops) (x1 : vec O1) (x2 : vec O2) (y1 : vec O1) (y2 : vec O2) (A1 : mat O1) (A2 : mat O2),
  same_view_v x1 x2 -> same_view_v y1 y2 -> same_view_m A1 A2 ->
  same_accesses_par (kk_matrix_rank_1_update x1 y1 A1) (kk_matrix_rank_1_update x2 y2 A2).
Proof. exact @acc_kk_matrix_rank_1_update. Qed.
Print Assumptions C96_kk_matrix_rank_1_update.
Theorem C96_kk_matrix_rank_1_update_conj : forall (O1 O2 : ops) (x1 : vec O1) (x2 : vec O2) (y1 : vec O1) (y2 : vec O2) (A1 : mat O1) (A2 : mat O2),
  same_view_v x1 x2 -> same_view_v y1 y2 -> same_view_m A1 A2 ->
  same_accesses_par (kk_matrix_rank_1_update_conj x1 y1 A1) (kk_matrix_rank_1_update_conj x2 y2 A2).
Proof. exact @acc_kk_matrix_rank_1_update_conj. Qed.
Print Assumptions C96_kk_matrix_rank_1_update_conj.
Theorem C96_kk_symmetric_matrix_rank_1_update : forall (O1 O2 : ops) (x1 : vec O1) (x2 : vec O2) (A1 : mat O1) (A2 : mat O2) (t : triangle),
  same_view_v x1 x2 -> same_view_m A1 A2 ->
  same_accesses_par (kk_symmetric_matrix_rank_1_update x1 A1 t) (kk_symmetric_matrix_rank_1_update x2 A2 t).
Proof. exact @acc_kk_symmetric_matrix_rank_1_update. Qed.
Print Assumptions C96_kk_symmetric_matrix_rank_1_update.
Theorem C96_kk_hermitian_matrix_rank_1_update : forall (O1 O2 : ops) (x1 : vec O1) (x2 : vec O2) (A1 : mat O1) (A2 : mat O2) (t : triangle),
  same_view_v x1 x2 -> same_view_m A1 A2 ->
  same_accesses_par (kk_hermitian_matrix_rank_1_update x1 A1 t) (kk_hermitian_matrix_rank_1_update x2 A2 t).
Proof. exact @acc_kk_hermitian_matrix_rank_1_update. Qed.
Print Assumptions C96_kk_hermitian_matrix_rank_1_update.
Theorem C96_kk_symmetric_matrix_rank_2_update : forall (O1 O2 : ops) (x1 : vec O1) (x2 : vec O2) (y1 : vec O1) (y2 : vec O2) (A1 : mat O1) (A2 : mat O2) (t : triangle),
  same_view_v x1 x2 -> same_view_v y1 y2 -> same_view_m A1 A2 ->
  same_accesses_par (kk_symmetric_matrix_rank_2_update x1 y1 A1 t) (kk_symmetric_matrix_rank_2_update x2 y2 A2 t).
Proof. exact @acc_kk_symmetric_matrix_rank_2_update. Qed.
Print Assumptions C96_kk_symmetric_matrix_rank_2_update.
Theorem C96_kk_hermitian_matrix_rank_2_update : forall (O1 O2 : ops) (x1 : vec O1) (x2 : vec O2) (y1 : vec O1) (y2 : vec O2) (A1 : mat O1) (A2 : mat O2) (t : triangle),
  same_view_v x1 x2 -> same_view_v y1 y2 -> same_view_m A1 A2 ->
  same_accesses_par (kk_hermitian_matrix_rank_2_update x1 y1 A1 t) (kk_hermitian_matrix_rank_2_update x2 y2 A2 t).
Proof. exact @acc_kk_hermitian_matrix_rank_2_update. Qed.
Print Assumptions C96_kk_hermitian_matrix_rank_2_update.
Theorem C96_kk_symmetric_matrix_rank_k_update : forall (O1 O2 : ops) (alpha1 : car O1) (alpha2 : car O2) (A1 : mat O1) (A2 : mat O2) (C1 : mat O1) (C2 : mat O2) (t : triangle),
  same_view_m A1 A2 -> same_view_m C1 C2 ->
  same_accesses_par (kk_symmetric_matrix_rank_k_update alpha1 A1 C1 t) (kk_symmetric_matrix_rank_k_update alpha2 A2 C2 t).
Proof. exact @acc_kk_symmetric_matrix_rank_k_update. Qed.
Print Assumptions C96_kk_symmetric_matrix_rank_k_update.
Theorem C96_kk_hermitian_matrix_rank_k_update : forall (O1 O2 : ops) (alpha1 : car O1) (alpha2 : car O2) (A1 : mat O1) (A2 : mat O2) (C1 : mat O1) (C2 : mat O2) (t : triangle),
  same_view_m A1 A2 -> same_view_m C1 C2 ->
  same_accesses_par (kk_hermitian_matrix_rank_k_update alpha1 A1 C1 t) (kk_hermitian_matrix_rank_k_update alpha2 A2 C2 t).
Proof. exact @acc_kk_hermitian_matrix_rank_k_update. Qed.
Print Assumptions C96_kk_hermitian_matrix_rank_k_update.
Theorem C96_kk_symmetric_matrix_rank_2k_update : forall (O1 O2 : ops) (A1 : mat O1) (A2 : mat O2) (B1 : mat O1) (B2 : mat O2) (C1 : mat O1) (C2 : mat O2) (t : triangle),
  same_view_m A1 A2 -> same_view_m B1 B2 -> same_view_m C1 C2 ->
  same_accesses_par (kk_symmetric_matrix_rank_2k_update A1 B1 C1 t) (kk_symmetric_matrix_rank_2k_update A2 B2 C2 t).
Proof. exact @acc_kk_symmetric_matrix_rank_2k_update. Qed.
Print Assumptions C96_kk_symmetric_matrix_rank_2k_update.
Theorem C96_kk_hermitian_matrix_rank_2k_update : forall (O1 O2 : ops) (A1 : mat O1) (A2 : mat O2) (B1 : mat O1) (B2 : mat O2) (C1 : mat O1) (C2 : mat O2) (t : triangle),
  same_view_m A1 A2 -> same_view_m B1 B2 -> same_view_m C1 C2 ->
  same_accesses_par (kk_hermitian_matrix_rank_2k_update A1 B1 C1 t) (kk_hermitian_matrix_rank_2k_update A2 B2 C2 t).
Proof. exact @acc_kk_hermitian_matrix_rank_2k_update. Qed.
Print Assumptions C96_kk_hermitian_matrix_rank_2k_update.
Theorem C96_kk_matrix_vector_product_upd : forall (O1 O2 : ops) (A1 : mat O1) (A2 : mat O2) (x1 : vec O1) (x2 : vec O2) (y1 : vec O1) (y2 : vec O2) (z1 : vec O1) (z2 : vec O2),
  same_view_m A1 A2 -> same_view_v x1 x2 -> same_view_v y1 y2 -> same_view_v z1 z2 ->
  same_accesses_par (kk_matrix_vector_product_upd A1 x1 y1 z1) (kk_matrix_vector_product_upd A2 x2 y2 z2).
Proof. exact @acc_kk_matrix_vector_product_upd. Qed.
Print Assumptions C96_kk_matrix_vector_product_upd.
Theorem C96_kk_triangular_matrix_vector_product : forall (O1 O2 : ops) (A1 : mat O1) (A2 : mat O2) (x1 : vec O1) (x2 : vec O2) (y1 : vec O1) (y2 : vec O2) (t : triangle) (d : diagonal),
  same_view_m A1 A2 -> same_view_v x1 x2 -> same_view_v y1 y2 ->
  same_accesses_par (kk_triangular_matrix_vector_product A1 t d x1 y1) (kk_triangular_matrix_vector_product A2 t d x2 y2).
Proof. exact @acc_kk_triangular_matrix_vector_product. Qed.
Print Assumptions C96_kk_triangular_matrix_vector_product.
Theorem C96_kk_triangular_matrix_vector_product_upd : forall (O1 O2 : ops) (A1 : mat O1) (A2 : mat O2) (x1 : vec O1) (x2 : vec O2) (y1 : vec O1) (y2 : vec O2) (z1 : vec O1) (z2 : vec O2) (t : triangle) (d : diagonal),
  same_view_m A1 A2 -> same_view_v x1 x2 -> same_view_v y1 y2 -> same_view_v z1 z2 ->
  same_accesses_par (kk_triangular_matrix_vector_product_upd A1 t d x1 y1 z1) (kk_triangular_matrix_vector_product_upd A2 t d x2 y2 z2).
Proof. exact @acc_kk_triangular_matrix_vector_product_upd. Qed.
Print Assumptions C96_kk_triangular_matrix_vector_product_upd.
Theorem C96_kk_symmetric_matrix_right_product_upd : forall (O1 O2 : ops) (A1 : mat O1) (A2 : mat O2) (B1 : mat O1) (B2 : mat O2) (E1 : mat O1) (E2 : mat O2) (C1 : mat O1) (C2 : mat O2) (t : triangle),
  same_view_m A1 A2 -> same_view_m B1 B2 -> same_view_m E1 E2 -> same_view_m C1 C2 ->
  same_accesses_par (kk_symmetric_matrix_right_product_upd A1 t B1 E1 C1) (kk_symmetric_matrix_right_product_upd A2 t B2 E2 C2).
Proof. exact @acc_kk_symmetric_matrix_right_product_upd. Qed.
Print Assumptions C96_kk_symmetric_matrix_right_product_upd.
Theorem C96_kk_hermitian_matrix_right_product_upd : forall (O1 O2 : ops) (A1 : mat O1) (A2 : mat O2) (B1 : mat O1) (B2 : mat O2) (E1 : mat O1) (E2 : mat O2) (C1 : mat O1) (C2 : mat O2) (t : triangle),
  same_view_m A1 A2 -> same_view_m B1 B2 -> same_view_m E1 E2 -> same_view_m C1 C2 ->
  same_accesses_par (kk_hermitian_matrix_right_product_upd A1 t B1 E1 C1) (kk_hermitian_matrix_right_product_upd A2 t B2 E2 C2).
Proof. exact @acc_kk_hermitian_matrix_right_product_upd. Qed.
Print Assumptions C96_kk_hermitian_matrix_right_product_upd.
Theorem C96_kk_triangular_matrix_left_product_unit : forall (O1 O2 : ops) (A1 : mat O1) (A2 : mat O2) (B1 : mat O1) (B2 : mat O2) (C1 : mat O1) (C2 : mat O2) (t : triangle),
  same_view_m A1 A2 -> same_view_m B1 B2 -> same_view_m C1 C2 ->
  same_accesses_par (kk_triangular_matrix_left_product_unit A1 t B1 C1) (kk_triangular_matrix_left_product_unit A2 t B2 C2).
Proof. exact @acc_kk_triangular_matrix_left_product_unit. Qed.
Print Assumptions C96_kk_triangular_matrix_left_product_unit.
Theorem C96_kk_triangular_matrix_right_product_unit : forall (O1 O2 : ops) (A1 : mat O1) (A2 : mat O2) (B1 : mat O1) (B2 : mat O2) (C1 : mat O1) (C2 : mat O2) (t : triangle),
  same_view_m A1 A2 -> same_view_m B1 B2 -> same_view_m C1 C2 ->
  same_accesses_par (kk_triangular_matrix_right_product_unit A1 t B1 C1) (kk_triangular_matrix_right_product_unit A2 t B2 C2).
Proof. exact @acc_kk_triangular_matrix_right_product_unit. Qed.
Print Assumptions C96_kk_triangular_matrix_right_product_unit.
Theorem C96_kk_triangular_matrix_left_product_inplace_unit : forall (O1 O2 : ops) (A1 : mat O1) (A2 : mat O2) (C1 : mat O1) (C2 : mat O2) (t : triangle),
  same_view_m A1 A2 -> same_view_m C1 C2 ->
  same_accesses_par (kk_triangular_matrix_left_product_inplace_unit A1 t C1) (kk_triangular_matrix_left_product_inplace_unit A2 t C2).
Proof. exact @acc_kk_triangular_matrix_left_product_inplace_unit. Qed.
Print Assumptions C96_kk_triangular_matrix_left_product_inplace_unit.
Theorem C96_kk_triangular_matrix_right_product_inplace_unit : forall (O1 O2 : ops) (A1 : mat O1) (A2 : mat O2) (C1 : mat O1) (C2 : mat O2) (t : triangle),
  same_view_m A1 A2 -> same_view_m C1 C2 ->
  same_accesses_par (kk_triangular_matrix_right_product_inplace_unit A1 t C1) (kk_triangular_matrix_right_product_inplace_unit A2 t C2).
Proof. exact @acc_kk_triangular_matrix_right_product_inplace_unit. Qed.
Print Assumptions C96_kk_triangular_matrix_right_product_inplace_unit.
(** * Kokkos back end: copies and swaps *)
Theorem C96_kk_copy_2 : forall (O1 O2 : ops) (x1 : mat O1) (x2 : mat O2) (y1 : mat O1) (y2 : mat O2),
  same_view_m x1 x2 -> same_view_m y1 y2 ->
  same_accesses_par (kk_copy_2 x1 y1) (kk_copy_2 x2 y2).
Proof. exact @acc_kk_copy_2. Qed.
Print Assumptions C96_kk_copy_2.
Theorem C96_kk_swap_1 : forall (O1 O2 : ops) (x1 : vec O1) (x2 : vec O2) (y1 : vec O1) (y2 : vec O2),
  same_view_v x1 x2 -> same_view_v y1 y2 ->
  same_accesses_par (kk_swap_1 x1 y1) (kk_swap_1 x2 y2).
Proof. exact @acc_kk_swap_1. Qed.
Print Assumptions C96_kk_swap_1.
Theorem C96_kk_swap_2 : forall (O1 O2 : ops) (x1 : mat O1) (x2 : mat O2) (y1 : mat O1) (y2 : mat O2),
  same_view_m x1 x2 -> same_view_m y1 y2 ->
  same_accesses_par (kk_swap_2 x1 y1) (kk_swap_2 x2 y2).
Proof. exact @acc_kk_swap_2. Qed.
Print Assumptions C96_kk_swap_2.
(** * Kokkos back end *)
Theorem C96_kk_symmetric_matrix_vector_product : forall (O1 O2 : ops) (A1 : mat O1) (A2 : mat O2) (x1 : vec O1) (x2 : vec O2) (y1 : vec O1) (y2 : vec O2) (t : triangle),
  same_view_m A1 A2 -> same_view_v x1 x2 -> same_view_v y1 y2 ->
  same_accesses_par (kk_symmetric_matrix_vector_product A1 t x1 y1) (kk_symmetric_matrix_vector_product A2 t x2 y2).
Proof. exact @acc_kk_symmetric_matrix_vector_product. Qed.
Print Assumptions C96_kk_symmetric_matrix_vector_product.
Theorem C96_kk_symmetric_matrix_vector_product_upd : forall (O1 O2 : ops) (A1 : mat O1) (A2 : mat O2) (x1 : vec O1) (x2 : vec O2) (y1 : vec O1) (y2 : vec O2) (z1 : vec O1) (z2 : vec O2) (t : triangle),
  same_view_m A1 A2 -> same_view_v x1 x2 -> same_view_v y1 y2 -> same_view_v z1 z2 ->
  same_accesses_par (kk_symmetric_matrix_vector_product_upd A1 t x1 y1 z1) (kk_symmetric_matrix_vector_product_upd A2 t x2 y2 z2).
Proof. exact @acc_kk_symmetric_matrix_vector_product_upd. Qed.
Print Assumptions C96_kk_symmetric_matrix_vector_product_upd.
Theorem C96_kk_hermitian_matrix_vector_product : forall (O1 O2 : ops) (A1 : mat O1) (A2 : mat O2) (x1 : vec O1) (x2 : vec O2) (y1 : vec O1) (y2 : vec O2) (t : triangle),
  same_view_m A1 A2 -> same_view_v x1 x2 -> same_view_v y1 y2 ->
  same_accesses_par (kk_hermitian_matrix_vector_product A1 t x1 y1) (kk_hermitian_matrix_vector_product A2 t x2 y2).
Proof. exact @acc_kk_hermitian_matrix_vector_product. Qed.
Print Assumptions C96_kk_hermitian_matrix_vector_product.
Theorem C96_kk_hermitian_matrix_vector_product_upd : forall (O1 O2 : ops) (A1 : mat O1) (A2 : mat O2) (x1 : vec O1) (x2 : vec O2) (y1 : vec O1) (y2 : vec O2) (z1 : vec O1) (z2 : vec O2) (t : triangle),
  same_view_m A1 A2 -> same_view_v x1 x2 -> same_view_v y1 y2 -> same_view_v z1 z2 ->
  same_accesses_par (kk_hermitian_matrix_vector_product_upd A1 t x1 y1 z1) (kk_hermitian_matrix_vector_product_upd A2 t x2 y2 z2).
Proof. exact @acc_kk_hermitian_matrix_vector_product_upd. Qed.
Print Assumptions C96_kk_hermitian_matrix_vector_product_upd.
Theorem C96_kk_symmetric_matrix_left_product : forall (O1 O2 : ops) (A1 : mat O1) (A2 : mat O2) (B1 : mat O1) (B2 : mat O2) (C1 : mat O1) (C2 : mat O2) (t : triangle),
  same_view_m A1 A2 -> same_view_m B1 B2 -> same_view_m C1 C2 ->
  same_accesses_par (kk_symmetric_matrix_left_product A1 t B1 C1) (kk_symmetric_matrix_left_product A2 t B2 C2).
Proof. exact @acc_kk_symmetric_matrix_left_product. Qed.
Print Assumptions C96_kk_symmetric_matrix_left_product.
Theorem C96_kk_symmetric_matrix_left_product_upd : forall (O1 O2 : ops) (A1 : mat O1) (A2 : mat O2) (B1 : mat O1) (B2 : mat O2) (E1 : mat O1) (E2 : mat O2) (C1 : mat O1) (C2 : mat O2) (t : triangle),
  same_view_m A1 A2 -> same_view_m B1 B2 -> same_view_m E1 E2 -> same_view_m C1 C2 ->
  same_accesses_par (kk_symmetric_matrix_left_product_upd A1 t B1 E1 C1) (kk_symmetric_matrix_left_product_upd A2 t B2 E2 C2).
Proof. exact @acc_kk_symmetric_matrix_left_product_upd. Qed.
Print Assumptions C96_kk_symmetric_matrix_left_product_upd.
Theorem C96_kk_symmetric_matrix_right_product : forall (O1 O2 : ops) (A1 : mat O1) (A2 : mat O2) (B1 : mat O1) (B2 : mat O2) (C1 : mat O1) (C2 : mat O2) (t : triangle),
  same_view_m A1 A2 -> same_view_m B1 B2 -> same_view_m C1 C2 ->
  same_accesses_par (kk_symmetric_matrix_right_product A1 t B1 C1) (kk_symmetric_matrix_right_product A2 t B2 C2).
Proof. exact @acc_kk_symmetric_matrix_right_product. Qed.
Print Assumptions C96_kk_symmetric_matrix_right_product.
Theorem C96_kk_hermitian_matrix_left_product : forall (O1 O2 : ops) (A1 : mat O1) (A2 : mat O2) (B1 : mat O1) (B2 : mat O2) (C1 : mat O1) (C2 : mat O2) (t : triangle),
  same_view_m A1 A2 -> same_view_m B1 B2 -> same_view_m C1 C2 ->
  same_accesses_par (kk_hermitian_matrix_left_product A1 t B1 C1) (kk_hermitian_matrix_left_product A2 t B2 C2).
Proof. exact @acc_kk_hermitian_matrix_left_product. Qed.
Print Assumptions C96_kk_hermitian_matrix_left_product.
Theorem C96_kk_hermitian_matrix_left_product_upd : forall (O1 O2 : ops) (A1 : mat O1) (A2 : mat O2) (B1 : mat O1) (B2 : mat O2) (E1 : mat O1) (E2 : mat O2) (C1 : mat O1) (C2 : mat O2) (t : triangle),
  same_view_m A1 A2 -> same_view_m B1 B2 -> same_view_m E1 E2 -> same_view_m C1 C2 ->
  same_accesses_par (kk_hermitian_matrix_left_product_upd A1 t B1 E1 C1) (kk_hermitian_matrix_left_product_upd A2 t B2 E2 C2).
Proof. exact @acc_kk_hermitian_matrix_left_product_upd. Qed.
Print Assumptions C96_kk_hermitian_matrix_left_product_upd.
Theorem C96_kk_hermitian_matrix_right_product : forall (O1 O2 : ops) (A1 : mat O1) (A2 : mat O2) (B1 : mat O1) (B2 : mat O2) (C1 : mat O1) (C2 : mat O2) (t : triangle),
  same_view_m A1 A2 -> same_view_m B1 B2 -> same_view_m C1 C2 ->
  same_accesses_par (kk_hermitian_matrix_right_product A1 t B1 C1) (kk_hermitian_matrix_right_product A2 t B2 C2).
Proof. exact @acc_kk_hermitian_matrix_right_product. Qed.
Print Assumptions C96_kk_hermitian_matrix_right_product.
(** * Kokkos back end: reductions ([lo1], [lo2]: the lowest value of the magnitude type) *)
Theorem C96_kk_dot : forall (O1 O2 : ops) x1 x2 y1 y2 (init1 : O1) (init2 : O2),
  same_view_v x1 x2 -> same_view_v y1 y2 ->
  same_accesses_red (kk_dot x1 y1 init1) (kk_dot x2 y2 init2).
Proof. exact @acc_kk_dot. Qed.
Print Assumptions C96_kk_dot.
Theorem C96_kk_vector_abs_sum : forall (O1 O2 : ops) (F1 F2 : rops) (M1 : mags O1 F1) (M2 : mags O2 F2) x1 x2 (init1 : F1) (init2 : F2),
  same_view_v x1 x2 ->
  same_accesses_red (kk_vector_abs_sum M1 x1 init1) (kk_vector_abs_sum M2 x2 init2).
Proof. exact @acc_kk_vector_abs_sum. Qed.
Print Assumptions C96_kk_vector_abs_sum.
Theorem C96_kk_vector_norm2 : forall (O1 O2 : ops) (F1 F2 : rops) (M1 : mags O1 F1) (M2 : mags O2 F2) x1 x2 (init1 : F1) (init2 : F2),
  same_view_v x1 x2 ->
  same_accesses_red (kk_vector_norm2 M1 x1 init1) (kk_vector_norm2 M2 x2 init2).
Proof. exact @acc_kk_vector_norm2. Qed.
Print Assumptions C96_kk_vector_norm2.
Theorem C96_kk_vector_sum_of_squares : forall (O1 O2 : ops) (F1 F2 : rops) (M1 : mags O1 F1) (M2 : mags O2 F2) (lo1 : F1) (lo2 : F2) x1 x2 init1 init2,
  same_view_v x1 x2 ->
  same_accesses_red (kk_vector_sum_of_squares M1 lo1 x1 init1) (kk_vector_sum_of_squares M2 lo2 x2 init2).
Proof. exact @acc_kk_vector_sum_of_squares. Qed.
Print Assumptions C96_kk_vector_sum_of_squares.
Theorem C96_kk_matrix_frob_norm : forall (O1 O2 : ops) (F1 F2 : rops) (M1 : mags O1 F1) (M2 : mags O2 F2) (lo1 : F1) (lo2 : F2) B1 B2 (init1 : F1) (init2 : F2),
  same_view_m B1 B2 ->
  same_accesses_red (kk_matrix_frob_norm M1 lo1 B1 init1) (kk_matrix_frob_norm M2 lo2 B2 init2).
Proof. exact @acc_kk_matrix_frob_norm. Qed.
Print Assumptions C96_kk_matrix_frob_norm.
Theorem C96_kk_matrix_inf_norm : forall (O1 O2 : ops) (F1 F2 : rops) (M1 : mags O1 F1) (M2 : mags O2 F2) (lo1 : F1) (lo2 : F2) B1 B2 (init1 : F1) (init2 : F2),
  same_view_m B1 B2 ->
  same_accesses_red (kk_matrix_inf_norm M1 lo1 B1 init1) (kk_matrix_inf_norm M2 lo2 B2 init2).
Proof. exact @acc_kk_matrix_inf_norm. Qed.
Print Assumptions C96_kk_matrix_inf_norm.
Theorem C96_kk_matrix_one_norm : forall (O1 O2 : ops) (F1 F2 : rops) (M1 : mags O1 F1) (M2 : mags O2 F2) (lo1 : F1) (lo2 : F2) B1 B2 (init1 : F1) (init2 : F2),
  same_view_m B1 B2 ->
  same_accesses_red (kk_matrix_one_norm M1 lo1 B1 init1) (kk_matrix_one_norm M2 lo2 B2 init2).
Proof. exact @acc_kk_matrix_one_norm. Qed.
Print Assumptions C96_kk_matrix_one_norm.

(** * The exceptions *)
(** vector_sum_of_squares and vector_two_norm load an element a second time unless it is zero; nothing else depends on the
    values. *)
Theorem C96_vector_sum_of_squares : forall (O : ops) (F : rops) (M : mags O F) (m : mem O) x f init, vec_holds m x f ->
  accesses (vector_sum_of_squares M x init) m =
  flat_map (fun i => if reqb (eabs M (f i)) r0 then [load_v x i] else [load_v x i; load_v x i]) (seq 0 (vext x)).
Proof. intros O F M m x f init H. exact (proj2 (ssq_reads M init H)). Qed.
Print Assumptions C96_vector_sum_of_squares.
Theorem C96_vector_two_norm : forall (O : ops) (F : rops) (M : mags O F) (m : mem O) x f init, vec_holds m x f ->
  accesses (vector_two_norm M x init) m =
  flat_map (fun i => if reqb (eabs M (f i)) r0 then [load_v x i] else [load_v x i; load_v x i]) (seq 0 (vext x)).
Proof. exact @two_norm_reads. Qed.
Print Assumptions C96_vector_two_norm.
(** vector_idx_abs_max of an arithmetic type loads an element a second time when it exceeds all before it. *)
Theorem C96_idx_abs_max_arithmetic : forall (O : ops) M (mag : O -> M) ltb size_max (m : mem O) v f, vec_holds m v f -> 0 < vext v ->
  accesses (idx_abs_max_arithmetic mag ltb size_max v) m =
  load_v v 0 :: flat_map (fun i => if ltb (largest ltb (fun k => mag (f k)) (i - 1)) (mag (f i)) then [load_v v i; load_v v i] else [load_v v i])
    (seq 1 (vext v - 1)).
Proof. exact @idx_arithmetic_reads. Qed.
Print Assumptions C96_idx_abs_max_arithmetic.
Theorem C96_idx_abs_max_complex : forall (O1 O2 : ops) M1 M2 (mre1 mim1 : O1 -> M1) (mre2 mim2 : O2 -> M2) plus1 plus2 ltb1 ltb2 size_max (v1 : vec O1) (v2 : vec O2),
  same_view_v v1 v2 ->
  same_accesses (idx_abs_max_complex mre1 mim1 plus1 ltb1 size_max v1) (idx_abs_max_complex mre2 mim2 plus2 ltb2 size_max v2).
Proof. exact @acc_idx_abs_max_complex. Qed.
Print Assumptions C96_idx_abs_max_complex.
(** The models of vector_idx_abs_max with every load behave as the model of Blas1.v. *)
Theorem C96_idx_abs_max_same : forall (O : ops) M (mag mre mim : O -> M) plus ltb size_max (m : mem O) v,
  run (idx_abs_max_arithmetic mag ltb size_max v) m = run (vector_idx_abs_max mag ltb size_max v) m /\
  ((forall a, mag a = plus (mre a) (mim a)) -> run (idx_abs_max_complex mre mim plus ltb size_max v) m = run (vector_idx_abs_max mag ltb size_max v) m).
Proof. intros. split; [apply idx_arithmetic_same|apply idx_complex_same]. Qed.
Print Assumptions C96_idx_abs_max_same.

(** * Cases *)
(** A product with a matrix of zeros performs the same 36 accesses as one with other numbers, also through scaled views. *)
Example C96_product_case :
  same_view_m (@scaled_m zops 0%Z (row_major 0 2 2)) (@scaled_m gops (0, 1)%Z (row_major 0 2 2)) /\
  accesses (@matrix_product zops (@scaled_m zops 0%Z (row_major 0 2 2)) (row_major 4 2 2) (row_major 8 2 2)) (mem_of [0; 0; 0; 0; 0; 0; 0; 0; 7; 7; 7; 7]%Z) =
  accesses (@matrix_product gops (@scaled_m gops (0, 1)%Z (row_major 0 2 2)) (row_major 4 2 2) (row_major 8 2 2))
    (mem_of (map (fun z => (z, z + 1)%Z) [1; 2; 3; 4; 5; 6; 7; 8; 0; 0; 0; 0]%Z)) /\
  length (accesses (@matrix_product zops (@scaled_m zops 0%Z (row_major 0 2 2)) (row_major 4 2 2) (row_major 8 2 2)) (mem_of [0; 0; 0; 0; 0; 0; 0; 0; 7; 7; 7; 7]%Z)) = 36.
Proof. split; [repeat split|split; vm_compute; reflexivity]. Qed.
(** A solve with a zero on the diagonal. *)
Example C96_solve_case :
  accesses (@triangular_matrix_vector_solve zops U64 (col_major 0 2 2) Lower Explicit (vec_at 4 2) (vec_at 6 2)) (mem_of [0; 0; 0; 0; 5; 6; 0; 0]%Z) =
  [Loads 4; Loads 0; Stores 6; Loads 5; Loads 1; Loads 6; Loads 3; Stores 7] /\
  accesses (@triangular_matrix_vector_solve zops U64 (col_major 0 2 2) Lower Explicit (vec_at 4 2) (vec_at 6 2)) (mem_of [1; 2; 3; 4; 5; 6; 7; 8]%Z) =
  [Loads 4; Loads 0; Stores 6; Loads 5; Loads 1; Loads 6; Loads 3; Stores 7].
Proof. split; vm_compute; reflexivity. Qed.
Definition zmagnitudes : rops := Rops 0%Z 1%Z Z.add Z.sub Z.mul Z.div Z.sqrt Z.abs Z.ltb Z.eqb. (* test data *)
Definition zabs : mags zops zmagnitudes := @Mags zops zmagnitudes true Z.abs (fun x => x) (fun _ => 0%Z). (* test data *)
Example C96_two_norm_case : @vec_holds zops (mem_of [3; 0; -4]%Z) (@vec_at zops 0 3) (@velt zops [3; 0; -4]%Z) /\
  accesses (vector_two_norm zabs (vec_at 0 3) 0%Z) (mem_of [3; 0; -4]%Z) = [Loads 0; Loads 0; Loads 1; Loads 2; Loads 2].
Proof. split; [intros [|[|[|i]]] Hi; try (eexists; split; reflexivity); simpl in Hi; lia|vm_compute; reflexivity]. Qed.
Example C96_idx_case : accesses (@idx_abs_max_arithmetic zops Z Z.abs Z.ltb 99%N (vec_at 0 4)) (mem_of [3; -3; -5; 4]%Z) =
  [Loads 0; Loads 1; Loads 2; Loads 2; Loads 3].
Proof. vm_compute. reflexivity. Qed.
Example C96_parallel_case :
  same_accesses_par (@kk_matrix_rank_1_update zops (vec_at 0 2) (vec_at 2 2) (row_major 4 2 2)) (@kk_matrix_rank_1_update gops (vec_at 0 2) (vec_at 2 2) (row_major 4 2 2)).
Proof. apply C96_kk_matrix_rank_1_update; repeat split. Qed.

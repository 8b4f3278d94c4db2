(** C97: the number of loads and stores of each algorithm of the inline back end, as a function of the extents. *)
From Coq Require Import List Arith NArith ZArith Bool Lia.
From Verif Require Import Mem Scalar View Spec Idx Blas1 Blas2 Blas3 Norm SpecRel Acc SpecAcc PfCost Inst.
Import ListNotations.
Set Implicit Arguments.

Theorem C97_copy_1 : forall (O : ops) (x y : vec O), performs (copy_1 x y) (vext y) (vext y).
Proof. exact @cost_copy_1. Qed.
Print Assumptions C97_copy_1.
Theorem C97_copy_2 : forall (O : ops) (x y : mat O), performs (copy_2 x y) (ext0 y * ext1 y) (ext0 y * ext1 y).
Proof. exact @cost_copy_2. Qed.
Print Assumptions C97_copy_2.
Theorem C97_swap_1 : forall (O : ops) (x y : vec O), performs (swap_1 x y) (2 * vext y) (2 * vext y).
Proof. exact @cost_swap_1. Qed.
Print Assumptions C97_swap_1.
Theorem C97_swap_2 : forall (O : ops) (x y : mat O), performs (swap_2 x y) (2 * (ext0 y * ext1 y)) (2 * (ext0 y * ext1 y)).
Proof. exact @cost_swap_2. Qed.
Print Assumptions C97_swap_2.
Theorem C97_scale_1 : forall (O : ops) alpha (x : vec O), performs (scale_1 alpha x) (vext x) (vext x).
Proof. exact @cost_scale_1. Qed.
Print Assumptions C97_scale_1.
Theorem C97_scale_2 : forall (O : ops) alpha (A : mat O), performs (scale_2 alpha A) (ext0 A * ext1 A) (ext0 A * ext1 A).
Proof. exact @cost_scale_2. Qed.
Print Assumptions C97_scale_2.
Theorem C97_add_1 : forall (O : ops) (x y z : vec O), performs (add_1 x y z) (2 * vext z) (vext z).
Proof. exact @cost_add_1. Qed.
Print Assumptions C97_add_1.
Theorem C97_add_2 : forall (O : ops) (x y z : mat O), performs (add_2 x y z) (2 * (ext0 x * ext1 x)) (ext0 x * ext1 x).
Proof. exact @cost_add_2. Qed.
Print Assumptions C97_add_2.
Theorem C97_dot : forall (O : ops) (v1 v2 : vec O) init, performs (dot v1 v2 init) (2 * vext v1) (0).
Proof. exact @cost_dot. Qed.
Print Assumptions C97_dot.
Theorem C97_apply_givens_rotation : forall (O : ops) (x y : vec O) c s, performs (apply_givens_rotation x y c s) (4 * vext x) (2 * vext x).
Proof. exact @cost_givens. Qed.
Print Assumptions C97_apply_givens_rotation.
Theorem C97_apply_givens_rotation_c : forall (O : ops) (x y : vec O) c s, performs (apply_givens_rotation_c x y c s) (4 * vext x) (2 * vext x).
Proof. exact @cost_givens_c. Qed.
Print Assumptions C97_apply_givens_rotation_c.
Theorem C97_matrix_vector_product : forall (O : ops) (A : mat O) x y, performs (matrix_vector_product A x y) (3 * (ext0 A * ext1 A)) (ext0 A * ext1 A + ext0 A).
Proof. exact @cost_gemv. Qed.
Print Assumptions C97_matrix_vector_product.
Theorem C97_matrix_vector_product_upd : forall (O : ops) (A : mat O) x y z, performs (matrix_vector_product_upd A x y z) (3 * (ext0 A * ext1 A) + ext0 A) (ext0 A * ext1 A + ext0 A).
Proof. exact @cost_gemv_upd. Qed.
Print Assumptions C97_matrix_vector_product_upd.
Theorem C97_symmetric_matrix_vector_product : forall (O : ops) (A : mat O) t x y n, ext0 A = n -> ext1 A = n ->
  performs (symmetric_matrix_vector_product A t x y) (5 * pairs n + 3 * n) (2 * pairs n + 2 * n).
Proof. exact @cost_symmv. Qed.
Print Assumptions C97_symmetric_matrix_vector_product.
Theorem C97_symmetric_matrix_vector_product_upd : forall (O : ops) (A : mat O) t x y z n, ext0 A = n -> ext1 A = n ->
  performs (symmetric_matrix_vector_product_upd A t x y z) (5 * pairs n + 4 * n) (2 * pairs n + 2 * n).
Proof. exact @cost_symmv_upd. Qed.
Print Assumptions C97_symmetric_matrix_vector_product_upd.
Theorem C97_hermitian_matrix_vector_product : forall (O : ops) (A : mat O) t x y n, ext0 A = n -> ext1 A = n ->
  performs (hermitian_matrix_vector_product A t x y) (5 * pairs n + 3 * n) (2 * pairs n + 2 * n).
Proof. exact @cost_hermv. Qed.
Print Assumptions C97_hermitian_matrix_vector_product.
Theorem C97_hermitian_matrix_vector_product_upd : forall (O : ops) (A : mat O) t x y z n, ext0 A = n -> ext1 A = n ->
  performs (hermitian_matrix_vector_product_upd A t x y z) (5 * pairs n + 4 * n) (2 * pairs n + 2 * n).
Proof. exact @cost_hermv_upd. Qed.
Print Assumptions C97_hermitian_matrix_vector_product_upd.
Theorem C97_triangular_matrix_vector_product : forall (O : ops) (A : mat O) t d x y n, ext0 A = n -> ext1 A = n ->
  performs (triangular_matrix_vector_product A t d x y) (3 * stored_entries d n + if_unit d (2 * n)) (pairs n + 2 * n).
Proof. exact @cost_trmv. Qed.
Print Assumptions C97_triangular_matrix_vector_product.
Theorem C97_triangular_matrix_vector_product_upd : forall (O : ops) (A : mat O) t d x y z n, ext0 A = n -> ext1 A = n ->
  performs (triangular_matrix_vector_product_upd A t d x y z) (3 * stored_entries d n + if_unit d (2 * n) + n) (pairs n + 2 * n).
Proof. exact @cost_trmv_upd. Qed.
Print Assumptions C97_triangular_matrix_vector_product_upd.
Theorem C97_triangular_matrix_vector_product_inplace : forall (O : ops) (A : mat O) t d y n, ext0 A = n -> ext1 A = n ->
  performs (triangular_matrix_vector_product_inplace A t d y) (2 * stored_entries d n + n) (stored_entries d n).
Proof. exact @cost_trmv_inplace. Qed.
Print Assumptions C97_triangular_matrix_vector_product_inplace.
Theorem C97_triangular_matrix_vector_solve_with : forall (O : ops) ty divide (A : mat O) t d b x n, ext0 A = n -> ext1 A = n -> fits ty n -> (n = 0 -> ty <> U32) ->
  performs (triangular_matrix_vector_solve_with ty divide A t d b x) (2 * pairs n + n + if_explicit d n) (n).
Proof. exact @cost_trsv. Qed.
Print Assumptions C97_triangular_matrix_vector_solve_with.
Theorem C97_matrix_rank_1_update : forall (O : ops) (x y : vec O) A, performs (matrix_rank_1_update x y A) (3 * (ext0 A * ext1 A)) (ext0 A * ext1 A).
Proof. exact @cost_ger. Qed.
Print Assumptions C97_matrix_rank_1_update.
Theorem C97_symmetric_matrix_rank_1_update_alpha : forall (O : ops) alpha (x : vec O) A t n, ext0 A = n -> ext1 A = n ->
  performs (symmetric_matrix_rank_1_update_alpha alpha x A t) (3 * (pairs n + n)) (pairs n + n).
Proof. exact @cost_sym_r1_alpha. Qed.
Print Assumptions C97_symmetric_matrix_rank_1_update_alpha.
Theorem C97_symmetric_matrix_rank_1_update : forall (O : ops) (x : vec O) A t n, ext0 A = n -> ext1 A = n ->
  performs (symmetric_matrix_rank_1_update x A t) (3 * (pairs n + n)) (pairs n + n).
Proof. exact @cost_sym_r1. Qed.
Print Assumptions C97_symmetric_matrix_rank_1_update.
Theorem C97_symmetric_matrix_rank_2_update : forall (O : ops) (x y : vec O) A t n, ext0 A = n -> ext1 A = n ->
  performs (symmetric_matrix_rank_2_update x y A t) (5 * (pairs n + n)) (pairs n + n).
Proof. exact @cost_sym_r2. Qed.
Print Assumptions C97_symmetric_matrix_rank_2_update.
Theorem C97_hermitian_matrix_rank_1_update_alpha : forall (O : ops) alpha (x : vec O) A t n, ext0 A = n -> ext1 A = n ->
  performs (hermitian_matrix_rank_1_update_alpha alpha x A t) (3 * (pairs n + n) + n) (pairs n + n + n).
Proof. exact @cost_her_r1_alpha. Qed.
Print Assumptions C97_hermitian_matrix_rank_1_update_alpha.
Theorem C97_hermitian_matrix_rank_1_update : forall (O : ops) (x : vec O) A t n, ext0 A = n -> ext1 A = n ->
  performs (hermitian_matrix_rank_1_update x A t) (3 * (pairs n + n) + n) (pairs n + n + n).
Proof. exact @cost_her_r1. Qed.
Print Assumptions C97_hermitian_matrix_rank_1_update.
Theorem C97_hermitian_matrix_rank_2_update : forall (O : ops) (x y : vec O) A t n, ext0 A = n -> ext1 A = n ->
  performs (hermitian_matrix_rank_2_update x y A t) (5 * (pairs n + n) + n) (pairs n + n + n).
Proof. exact @cost_her_r2. Qed.
Print Assumptions C97_hermitian_matrix_rank_2_update.
Theorem C97_matrix_product : forall (O : ops) (A B C : mat O), performs (matrix_product A B C) (3 * (ext0 C * ext1 C * ext1 A)) (ext0 C * ext1 C * ext1 A + ext0 C * ext1 C).
Proof. exact @cost_gemm. Qed.
Print Assumptions C97_matrix_product.
Theorem C97_matrix_product_upd : forall (O : ops) (A B E C : mat O), performs (matrix_product_upd A B E C) (3 * (ext0 C * ext1 C * ext1 A) + ext0 C * ext1 C) (ext0 C * ext1 C * ext1 A + ext0 C * ext1 C).
Proof. exact @cost_gemm_upd. Qed.
Print Assumptions C97_matrix_product_upd.
Theorem C97_triangular_matrix_product_left : forall (O : ops) ty (A B C : mat O) t d n r, ext0 C = n -> ext1 C = r -> fits ty n ->
  performs (triangular_matrix_product_left ty A t d B C) (r * (3 * stored_entries d n + if_unit d (2 * n))) (r * (pairs n + 2 * n)).
Proof. exact @cost_trmm_left. Qed.
Print Assumptions C97_triangular_matrix_product_left.
Theorem C97_triangular_matrix_product_right : forall (O : ops) ty (A B C : mat O) t d n r, ext1 C = n -> ext0 C = r -> fits ty n ->
  performs (triangular_matrix_product_right ty B A t d C) (r * (3 * stored_entries d n + if_unit d (2 * n))) (r * (pairs n + 2 * n)).
Proof. exact @cost_trmm_right. Qed.
Print Assumptions C97_triangular_matrix_product_right.
Theorem C97_triangular_matrix_left_product : forall (O : ops) (A C : mat O) t d n r, ext0 C = n -> ext1 C = r ->
  performs (triangular_matrix_left_product A t d C) (r * (3 * pairs n + if_explicit d (2 * n))) (r * stored_entries d n).
Proof. exact @cost_trmm_left_inplace. Qed.
Print Assumptions C97_triangular_matrix_left_product.
Theorem C97_triangular_matrix_right_product : forall (O : ops) (A C : mat O) t d n r, ext1 C = n -> ext0 C = r ->
  performs (triangular_matrix_right_product A t d C) (r * (3 * pairs n + if_explicit d (2 * n))) (r * stored_entries d n).
Proof. exact @cost_trmm_right_inplace. Qed.
Print Assumptions C97_triangular_matrix_right_product.
Theorem C97_symmetric_matrix_product_left : forall (O : ops) (A B C : mat O) t, performs (symmetric_matrix_product_left A t B C) (3 * (ext0 C * ext1 C * ext1 A)) (ext0 C * ext1 C * ext1 A + ext0 C * ext1 C).
Proof. exact @cost_symm_left. Qed.
Print Assumptions C97_symmetric_matrix_product_left.
Theorem C97_symmetric_matrix_product_right : forall (O : ops) (A B C : mat O) t, performs (symmetric_matrix_product_right B A t C) (3 * (ext0 C * ext1 C * ext1 A)) (ext0 C * ext1 C * ext1 A + ext0 C * ext1 C).
Proof. exact @cost_symm_right. Qed.
Print Assumptions C97_symmetric_matrix_product_right.
Theorem C97_hermitian_matrix_product_left : forall (O : ops) (A B C : mat O) t n r, ext0 A = n -> ext1 A = n -> ext0 C = n -> ext1 C = r ->
  performs (hermitian_matrix_product_left A t B C) (3 * (n * r * n)) (n * r * n + n * r).
Proof. exact @cost_hemm_left. Qed.
Print Assumptions C97_hermitian_matrix_product_left.
Theorem C97_hermitian_matrix_product_right : forall (O : ops) (A B C : mat O) t, performs (hermitian_matrix_product_right B A t C) (3 * (ext0 C * ext1 C * ext1 A)) (ext0 C * ext1 C * ext1 A + ext0 C * ext1 C).
Proof. exact @cost_hemm_right. Qed.
Print Assumptions C97_hermitian_matrix_product_right.
Theorem C97_symmetric_matrix_rank_k_update_alpha : forall (O : ops) alpha (A C : mat O) t n, ext0 C = n -> ext1 C = n ->
  performs (symmetric_matrix_rank_k_update_alpha alpha A C t) (3 * ((pairs n + n) * ext1 A)) ((pairs n + n) * ext1 A).
Proof. exact @cost_sym_rk_alpha. Qed.
Print Assumptions C97_symmetric_matrix_rank_k_update_alpha.
Theorem C97_symmetric_matrix_rank_k_update : forall (O : ops) (A C : mat O) t n, ext0 C = n -> ext1 C = n ->
  performs (symmetric_matrix_rank_k_update A C t) (3 * ((pairs n + n) * ext1 A)) ((pairs n + n) * ext1 A).
Proof. exact @cost_sym_rk. Qed.
Print Assumptions C97_symmetric_matrix_rank_k_update.
Theorem C97_symmetric_matrix_rank_2k_update : forall (O : ops) (A B C : mat O) t n, ext0 C = n -> ext1 C = n ->
  performs (symmetric_matrix_rank_2k_update A B C t) (5 * ((pairs n + n) * ext1 A)) ((pairs n + n) * ext1 A).
Proof. exact @cost_sym_r2k. Qed.
Print Assumptions C97_symmetric_matrix_rank_2k_update.
Theorem C97_hermitian_matrix_rank_k_update_alpha : forall (O : ops) alpha (A C : mat O) t n, ext0 C = n -> ext1 C = n ->
  performs (hermitian_matrix_rank_k_update_alpha alpha A C t) (3 * ((pairs n + n) * ext1 A) + n) ((pairs n + n) * ext1 A + n).
Proof. exact @cost_her_rk_alpha. Qed.
Print Assumptions C97_hermitian_matrix_rank_k_update_alpha.
Theorem C97_hermitian_matrix_rank_k_update : forall (O : ops) (A C : mat O) t n, ext0 C = n -> ext1 C = n ->
  performs (hermitian_matrix_rank_k_update A C t) (3 * ((pairs n + n) * ext1 A) + n) ((pairs n + n) * ext1 A + n).
Proof. exact @cost_her_rk. Qed.
Print Assumptions C97_hermitian_matrix_rank_k_update.
Theorem C97_hermitian_matrix_rank_2k_update : forall (O : ops) (A B C : mat O) t n, ext0 C = n -> ext1 C = n ->
  performs (hermitian_matrix_rank_2k_update A B C t) (5 * ((pairs n + n) * ext1 A) + n) ((pairs n + n) * ext1 A + n).
Proof. exact @cost_her_r2k. Qed.
Print Assumptions C97_hermitian_matrix_rank_2k_update.
Theorem C97_triangular_matrix_matrix_left_solve : forall (O : ops) ty (A B X : mat O) t d n r, ext0 A = n -> ext1 B = r -> fits ty n -> (n = 0 -> ty <> U32) ->
  performs (triangular_matrix_matrix_left_solve ty A t d B X) (r * (2 * pairs n + n + if_explicit d n)) (r * n).
Proof. exact @cost_trsm_left. Qed.
Print Assumptions C97_triangular_matrix_matrix_left_solve.
Theorem C97_triangular_matrix_matrix_right_solve : forall (O : ops) ty (A B X : mat O) t d n r, ext0 A = n -> ext1 A = n -> ext0 B = r -> (t = Lower -> fits (make_signed ty) n) ->
  performs (triangular_matrix_matrix_right_solve ty A t d B X) (r * (2 * pairs n + n + if_explicit d n)) (r * n).
Proof. exact @cost_trsm_right. Qed.
Print Assumptions C97_triangular_matrix_matrix_right_solve.

(** * Norms *)
Theorem C97_vector_abs_sum : forall (O : ops) (F : rops) (M : mags O F) (v : vec O) init,
  performs (vector_abs_sum M v init) ((if arithmetic M then 1 else 2) * vext v) 0.
Proof. exact @cost_abs_sum. Qed.
Print Assumptions C97_vector_abs_sum.
Theorem C97_matrix_frob_norm : forall (O : ops) (F : rops) (M : mags O F) (A : mat O) init, performs (matrix_frob_norm M A init) (ext0 A * ext1 A) 0.
Proof. exact @cost_frob. Qed.
Print Assumptions C97_matrix_frob_norm.
Theorem C97_matrix_inf_norm : forall (O : ops) (F : rops) (M : mags O F) (A : mat O) init, performs (matrix_inf_norm M A init) (ext0 A * ext1 A) 0.
Proof. exact @cost_inf. Qed.
Print Assumptions C97_matrix_inf_norm.
Theorem C97_matrix_one_norm : forall (O : ops) (F : rops) (M : mags O F) (A : mat O) init, performs (matrix_one_norm M A init) (ext0 A * ext1 A) 0.
Proof. exact @cost_one. Qed.
Print Assumptions C97_matrix_one_norm.
(** One load of each element and one more of each that is not zero. *)
Theorem C97_vector_sum_of_squares : forall (O : ops) (F : rops) (M : mags O F) (m : mem O) x f init, vec_holds m x f ->
  loads (accesses (vector_sum_of_squares M x init) m) = vext x + length (filter (fun i => negb (reqb (eabs M (f i)) r0)) (seq 0 (vext x))) /\
  stores (accesses (vector_sum_of_squares M x init) m) = 0.
Proof. exact @cost_ssq. Qed.
Print Assumptions C97_vector_sum_of_squares.
Theorem C97_vector_two_norm : forall (O : ops) (F : rops) (M : mags O F) (m : mem O) x f init, vec_holds m x f ->
  loads (accesses (vector_two_norm M x init) m) = vext x + length (filter (fun i => negb (reqb (eabs M (f i)) r0)) (seq 0 (vext x))) /\
  stores (accesses (vector_two_norm M x init) m) = 0.
Proof. exact @cost_two_norm. Qed.
Print Assumptions C97_vector_two_norm.
(** One load of each element and one more of each that exceeds all before it. *)
Theorem C97_idx_abs_max_arithmetic : forall (O : ops) M (mag : O -> M) ltb size_max (m : mem O) v f, vec_holds m v f ->
  loads (accesses (idx_abs_max_arithmetic mag ltb size_max v) m) =
  vext v + length (filter (fun i => ltb (largest ltb (fun k => mag (f k)) (i - 1)) (mag (f i))) (seq 1 (vext v - 1))) /\
  stores (accesses (idx_abs_max_arithmetic mag ltb size_max v) m) = 0.
Proof. exact @cost_idx_arithmetic. Qed.
Print Assumptions C97_idx_abs_max_arithmetic.
Theorem C97_idx_abs_max_complex : forall (O : ops) M (mre mim : O -> M) plus ltb size_max v,
  performs (idx_abs_max_complex mre mim plus ltb size_max v) (2 * vext v) 0.
Proof. exact @cost_idx_complex. Qed.
Print Assumptions C97_idx_abs_max_complex.

(** * Cases: runs that return *)
Definition tally {T A} (p : prog T A) (m : mem T) : option (nat * nat) := (* test helper *)
  match run p m with Ok _ _ => Some (loads (accesses p m), stores (accesses p m)) | _ => None end.
Example C97_product_case : tally (@matrix_product zops (row_major 0 2 3) (row_major 6 3 2) (row_major 12 2 2)) (mem_of (repeat 1%Z 16)) = Some (36, 16).
Proof. vm_compute. reflexivity. Qed.
Example C97_symmetric_case : pairs 3 = 3 /\
  tally (@symmetric_matrix_vector_product zops (row_major 0 3 3) Upper (vec_at 9 3) (vec_at 12 3)) (mem_of (repeat 2%Z 15)) = Some (24, 12).
Proof. split; vm_compute; reflexivity. Qed.
Example C97_trsm_case : fits U32 3 /\
  tally (@triangular_matrix_matrix_left_solve zops U32 (row_major 0 3 3) Upper ImplicitUnit (row_major 9 3 2) (row_major 15 3 2)) (mem_of (repeat 2%Z 21)) = Some (18, 6) /\
  tally (@triangular_matrix_matrix_right_solve zops U32 (row_major 0 3 3) Lower Explicit (row_major 9 2 3) (row_major 15 2 3)) (mem_of (repeat 2%Z 21)) = Some (24, 6).
Proof. split; [split; vm_compute; discriminate|split; vm_compute; reflexivity]. Qed.
Example C97_trmm_case :
  tally (@triangular_matrix_product_left zops U64 (row_major 0 3 3) Lower ImplicitUnit (row_major 9 3 2) (row_major 15 3 2)) (mem_of (repeat 2%Z 21)) = Some (30, 18).
Proof. vm_compute. reflexivity. Qed.

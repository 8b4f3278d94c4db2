(** C84: the results do not depend on the index types of the arguments.  Every inline algorithm, run with loop counters of
    the common type of the arguments' index types, incremented and compared as C++ does (Counter.v), has exactly the runs of
    the model with unbounded counters, to which the other properties apply, whenever the extents are numbers of the index
    types.  [fuel] bounds the iterations of a loop and only has to exceed the extents. *)
From Coq Require Import List Arith NArith ZArith Bool Lia.
From Verif Require Import Mem Scalar View Spec Idx Ints SpecI SpecI2 SpecCt Blas1 Blas2 Blas3 Norm Counter PfCounter PfCounter2 Inst.
Import ListNotations.
Set Implicit Arguments.
Local Open Scope Z_scope.

(** The common type can represent the extents of every argument. *)
Theorem C84_common_type : forall t l u n, 1 <= iwidth t -> (forall v, In v l -> 1 <= iwidth v) -> In u (t :: l) -> 0 <= n ->
  representable u n -> representable (common_types t l) n.
Proof. exact common_types_rep. Qed.
Print Assumptions C84_common_type.

Theorem C84_copy_1 : forall (O : ops) (fuel : nat) (tx ty : ikind) (x y : vec O),
  vspan fuel tx x -> vspan fuel ty y ->
  same_run (c_copy_1 fuel tx ty x y) (copy_1 x y).
Proof. exact copy_1_same. Qed.
Print Assumptions C84_copy_1.

Theorem C84_copy_2 : forall (O : ops) (fuel : nat) (tx ty : ikind) (x y : mat O),
  mspan fuel tx x -> mspan fuel ty y ->
  same_run (c_copy_2 fuel tx ty x y) (copy_2 x y).
Proof. exact copy_2_same. Qed.
Print Assumptions C84_copy_2.

Theorem C84_swap_1 : forall (O : ops) (fuel : nat) (tx ty : ikind) (x y : vec O),
  vspan fuel tx x -> vspan fuel ty y ->
  same_run (c_swap_1 fuel tx ty x y) (swap_1 x y).
Proof. exact swap_1_same. Qed.
Print Assumptions C84_swap_1.

Theorem C84_swap_2 : forall (O : ops) (fuel : nat) (tx ty : ikind) (x y : mat O),
  mspan fuel tx x -> mspan fuel ty y ->
  same_run (c_swap_2 fuel tx ty x y) (swap_2 x y).
Proof. exact swap_2_same. Qed.
Print Assumptions C84_swap_2.

Theorem C84_scale_1 : forall (O : ops) (fuel : nat) (tx : ikind) (alpha : O) (x : vec O),
  vspan fuel tx x ->
  same_run (c_scale_1 fuel tx alpha x) (scale_1 alpha x).
Proof. exact scale_1_same. Qed.
Print Assumptions C84_scale_1.

Theorem C84_scale_2 : forall (O : ops) (fuel : nat) (tA : ikind) (alpha : O) (A : mat O),
  mspan fuel tA A ->
  same_run (c_scale_2 fuel tA alpha A) (scale_2 alpha A).
Proof. exact scale_2_same. Qed.
Print Assumptions C84_scale_2.

Theorem C84_add_1 : forall (O : ops) (fuel : nat) (tx ty tz : ikind) (x y z : vec O),
  vspan fuel tx x -> vspan fuel ty y -> vspan fuel tz z ->
  same_run (c_add_1 fuel tx ty tz x y z) (add_1 x y z).
Proof. exact add_1_same. Qed.
Print Assumptions C84_add_1.

Theorem C84_add_2 : forall (O : ops) (fuel : nat) (tx ty tz : ikind) (x y z : mat O),
  mspan fuel tx x -> mspan fuel ty y -> mspan fuel tz z ->
  same_run (c_add_2 fuel tx ty tz x y z) (add_2 x y z).
Proof. exact add_2_same. Qed.
Print Assumptions C84_add_2.

Theorem C84_dot : forall (O : ops) (fuel : nat) (tv1 tv2 : ikind) (v1 v2 : vec O) (init : O),
  vspan fuel tv1 v1 -> vspan fuel tv2 v2 ->
  same_run (c_dot fuel tv1 tv2 v1 v2 init) (dot v1 v2 init).
Proof. exact dot_same. Qed.
Print Assumptions C84_dot.

Theorem C84_vector_idx_abs_max : forall (O : ops) (M : Type) (fuel : nat) (tv : ikind) (mag : O -> M) (ltb : M -> M -> bool) (size_max : N) (v : vec O),
  vspan fuel tv v ->
  same_run (c_vector_idx_abs_max fuel tv mag ltb size_max v) (vector_idx_abs_max mag ltb size_max v).
Proof. exact vector_idx_abs_max_same. Qed.
Print Assumptions C84_vector_idx_abs_max.

Theorem C84_apply_givens_rotation : forall (O : ops) (fuel : nat) (tx ty : ikind) (x y : vec O) (c s : O),
  vspan fuel tx x -> vspan fuel ty y ->
  same_run (c_apply_givens_rotation fuel tx ty x y c s) (apply_givens_rotation x y c s).
Proof. exact apply_givens_rotation_same. Qed.
Print Assumptions C84_apply_givens_rotation.

Theorem C84_apply_givens_rotation_c : forall (O : ops) (fuel : nat) (tx ty : ikind) (x y : vec O) (c s : O),
  vspan fuel tx x -> vspan fuel ty y ->
  same_run (c_apply_givens_rotation_c fuel tx ty x y c s) (apply_givens_rotation_c x y c s).
Proof. exact apply_givens_rotation_c_same. Qed.
Print Assumptions C84_apply_givens_rotation_c.

Theorem C84_matrix_vector_product : forall (O : ops) (fuel : nat) (tA tx ty : ikind) (A : mat O) (x y : vec O),
  mspan fuel tA A -> vspan fuel tx x -> vspan fuel ty y ->
  same_run (c_matrix_vector_product fuel tA tx ty A x y) (matrix_vector_product A x y).
Proof. exact matrix_vector_product_same. Qed.
Print Assumptions C84_matrix_vector_product.

Theorem C84_matrix_vector_product_upd : forall (O : ops) (fuel : nat) (tA tx ty tz : ikind) (A : mat O) (x y z : vec O),
  mspan fuel tA A -> vspan fuel tx x -> vspan fuel ty y -> vspan fuel tz z ->
  same_run (c_matrix_vector_product_upd fuel tA tx ty tz A x y z) (matrix_vector_product_upd A x y z).
Proof. exact matrix_vector_product_upd_same. Qed.
Print Assumptions C84_matrix_vector_product_upd.

Theorem C84_symmetric_matrix_vector_product : forall (O : ops) (fuel : nat) (tA tx ty : ikind) (A : mat O) (t : triangle) (x y : vec O),
  mspan fuel tA A -> vspan fuel tx x -> vspan fuel ty y ->
  same_run (c_symmetric_matrix_vector_product fuel tA tx ty A t x y) (symmetric_matrix_vector_product A t x y).
Proof. exact symmetric_matrix_vector_product_same. Qed.
Print Assumptions C84_symmetric_matrix_vector_product.

Theorem C84_symmetric_matrix_vector_product_upd : forall (O : ops) (fuel : nat) (tA tx ty tz : ikind) (A : mat O) (t : triangle) (x y z : vec O),
  mspan fuel tA A -> vspan fuel tx x -> vspan fuel ty y -> vspan fuel tz z ->
  same_run (c_symmetric_matrix_vector_product_upd fuel tA tx ty tz A t x y z) (symmetric_matrix_vector_product_upd A t x y z).
Proof. exact symmetric_matrix_vector_product_upd_same. Qed.
Print Assumptions C84_symmetric_matrix_vector_product_upd.

Theorem C84_hermitian_matrix_vector_product : forall (O : ops) (fuel : nat) (tA tx ty : ikind) (A : mat O) (t : triangle) (x y : vec O),
  mspan fuel tA A -> vspan fuel tx x -> vspan fuel ty y ->
  same_run (c_hermitian_matrix_vector_product fuel tA tx ty A t x y) (hermitian_matrix_vector_product A t x y).
Proof. exact hermitian_matrix_vector_product_same. Qed.
Print Assumptions C84_hermitian_matrix_vector_product.

Theorem C84_hermitian_matrix_vector_product_upd : forall (O : ops) (fuel : nat) (tA tx ty tz : ikind) (A : mat O) (t : triangle) (x y z : vec O),
  mspan fuel tA A -> vspan fuel tx x -> vspan fuel ty y -> vspan fuel tz z ->
  same_run (c_hermitian_matrix_vector_product_upd fuel tA tx ty tz A t x y z) (hermitian_matrix_vector_product_upd A t x y z).
Proof. exact hermitian_matrix_vector_product_upd_same. Qed.
Print Assumptions C84_hermitian_matrix_vector_product_upd.

Theorem C84_triangular_matrix_vector_product : forall (O : ops) (fuel : nat) (tA tx ty : ikind) (A : mat O) (t : triangle) (d : diagonal) (x y : vec O),
  mspan fuel tA A -> vspan fuel tx x -> vspan fuel ty y ->
  same_run (c_triangular_matrix_vector_product fuel tA tx ty A t d x y) (triangular_matrix_vector_product A t d x y).
Proof. exact triangular_matrix_vector_product_same. Qed.
Print Assumptions C84_triangular_matrix_vector_product.

Theorem C84_triangular_matrix_vector_product_upd : forall (O : ops) (fuel : nat) (tA tx ty tz : ikind) (A : mat O) (t : triangle) (d : diagonal) (x y z : vec O),
  mspan fuel tA A -> vspan fuel tx x -> vspan fuel ty y -> vspan fuel tz z ->
  same_run (c_triangular_matrix_vector_product_upd fuel tA tx ty tz A t d x y z) (triangular_matrix_vector_product_upd A t d x y z).
Proof. exact triangular_matrix_vector_product_upd_same. Qed.
Print Assumptions C84_triangular_matrix_vector_product_upd.

Theorem C84_triangular_matrix_vector_product_inplace : forall (O : ops) (fuel : nat) (tA ty : ikind) (A : mat O) (t : triangle) (d : diagonal) (y : vec O),
  mspan fuel tA A -> vspan fuel ty y ->
  same_run (c_triangular_matrix_vector_product_inplace fuel tA ty A t d y) (triangular_matrix_vector_product_inplace A t d y).
Proof. exact triangular_matrix_vector_product_inplace_same. Qed.
Print Assumptions C84_triangular_matrix_vector_product_inplace.

Theorem C84_trsv_upper : forall (O : ops) (fuel : nat) (tA tB tX : ikind) (z : ity) (divide : O -> O -> O) (A : mat O) (d : diagonal) (B X : vec O),
  kind_of z = common_types tA [tB; tX] -> mspan fuel tA A -> vspan fuel tB B -> vspan fuel tX X ->
  same_run (c_trsv_upper fuel z divide A d B X) (trsv_upper z divide A d B X).
Proof. exact trsv_upper_same. Qed.
Print Assumptions C84_trsv_upper.

Theorem C84_trsv_lower : forall (O : ops) (fuel : nat) (tA tB tX : ikind) (z : ity) (divide : O -> O -> O) (A : mat O) (d : diagonal) (B X : vec O),
  kind_of z = common_types tA [tB; tX] -> mspan fuel tA A -> vspan fuel tB B -> vspan fuel tX X ->
  same_run (c_trsv_lower fuel z divide A d B X) (trsv_lower divide A d B X).
Proof. exact trsv_lower_same. Qed.
Print Assumptions C84_trsv_lower.

Theorem C84_matrix_rank_1_update : forall (O : ops) (fuel : nat) (tx ty tA : ikind) (x y : vec O) (A : mat O),
  vspan fuel tx x -> vspan fuel ty y -> mspan fuel tA A ->
  same_run (c_matrix_rank_1_update fuel tx ty tA x y A) (matrix_rank_1_update x y A).
Proof. exact matrix_rank_1_update_same. Qed.
Print Assumptions C84_matrix_rank_1_update.

Theorem C84_symmetric_matrix_rank_1_update_alpha : forall (O : ops) (fuel : nat) (tx tA : ikind) (alpha : O) (x : vec O) (A : mat O) (t : triangle),
  vspan fuel tx x -> mspan fuel tA A ->
  same_run (c_symmetric_matrix_rank_1_update_alpha fuel tx tA alpha x A t) (symmetric_matrix_rank_1_update_alpha alpha x A t).
Proof. exact symmetric_matrix_rank_1_update_alpha_same. Qed.
Print Assumptions C84_symmetric_matrix_rank_1_update_alpha.

Theorem C84_symmetric_matrix_rank_1_update : forall (O : ops) (fuel : nat) (tx tA : ikind) (x : vec O) (A : mat O) (t : triangle),
  vspan fuel tx x -> mspan fuel tA A ->
  same_run (c_symmetric_matrix_rank_1_update fuel tx tA x A t) (symmetric_matrix_rank_1_update x A t).
Proof. exact symmetric_matrix_rank_1_update_same. Qed.
Print Assumptions C84_symmetric_matrix_rank_1_update.

Theorem C84_hermitian_matrix_rank_1_update_alpha : forall (O : ops) (fuel : nat) (tx tA : ikind) (alpha : O) (x : vec O) (A : mat O) (t : triangle),
  vspan fuel tx x -> mspan fuel tA A ->
  same_run (c_hermitian_matrix_rank_1_update_alpha fuel tx tA alpha x A t) (hermitian_matrix_rank_1_update_alpha alpha x A t).
Proof. exact hermitian_matrix_rank_1_update_alpha_same. Qed.
Print Assumptions C84_hermitian_matrix_rank_1_update_alpha.

Theorem C84_hermitian_matrix_rank_1_update : forall (O : ops) (fuel : nat) (tx tA : ikind) (x : vec O) (A : mat O) (t : triangle),
  vspan fuel tx x -> mspan fuel tA A ->
  same_run (c_hermitian_matrix_rank_1_update fuel tx tA x A t) (hermitian_matrix_rank_1_update x A t).
Proof. exact hermitian_matrix_rank_1_update_same. Qed.
Print Assumptions C84_hermitian_matrix_rank_1_update.

Theorem C84_symmetric_matrix_rank_2_update : forall (O : ops) (fuel : nat) (tx ty tA : ikind) (x y : vec O) (A : mat O) (t : triangle),
  vspan fuel tx x -> vspan fuel ty y -> mspan fuel tA A ->
  same_run (c_symmetric_matrix_rank_2_update fuel tx ty tA x y A t) (symmetric_matrix_rank_2_update x y A t).
Proof. exact symmetric_matrix_rank_2_update_same. Qed.
Print Assumptions C84_symmetric_matrix_rank_2_update.

Theorem C84_hermitian_matrix_rank_2_update : forall (O : ops) (fuel : nat) (tx ty tA : ikind) (x y : vec O) (A : mat O) (t : triangle),
  vspan fuel tx x -> vspan fuel ty y -> mspan fuel tA A ->
  same_run (c_hermitian_matrix_rank_2_update fuel tx ty tA x y A t) (hermitian_matrix_rank_2_update x y A t).
Proof. exact hermitian_matrix_rank_2_update_same. Qed.
Print Assumptions C84_hermitian_matrix_rank_2_update.

Theorem C84_matrix_product : forall (O : ops) (fuel : nat) (tA tB tC : ikind) (A B C : mat O),
  mspan fuel tA A -> mspan fuel tB B -> mspan fuel tC C ->
  same_run (c_matrix_product fuel tA tB tC A B C) (matrix_product A B C).
Proof. exact matrix_product_same. Qed.
Print Assumptions C84_matrix_product.

Theorem C84_matrix_product_upd : forall (O : ops) (fuel : nat) (tA tB tE tC : ikind) (A B E C : mat O),
  mspan fuel tA A -> mspan fuel tB B -> mspan fuel tE E -> mspan fuel tC C ->
  same_run (c_matrix_product_upd fuel tA tB tE tC A B E C) (matrix_product_upd A B E C).
Proof. exact matrix_product_upd_same. Qed.
Print Assumptions C84_matrix_product_upd.

Theorem C84_triangular_matrix_product_left : forall (O : ops) (fuel : nat) (tA tB tC : ikind) (z : ity) (A : mat O) (t : triangle) (d : diagonal) (B C : mat O),
  kind_of z = common_types tA [tB; tC] -> mspan fuel tA A -> mspan fuel tB B -> mspan fuel tC C -> in_ptrdiff C ->
  same_run (c_triangular_matrix_product_left fuel tA tB tC z A t d B C) (triangular_matrix_product_left z A t d B C).
Proof. exact triangular_matrix_product_left_same. Qed.
Print Assumptions C84_triangular_matrix_product_left.

Theorem C84_triangular_matrix_product_right : forall (O : ops) (fuel : nat) (tA tB tC : ikind) (z : ity) (B A : mat O) (t : triangle) (d : diagonal) (C : mat O),
  kind_of z = common_types tA [tB; tC] -> mspan fuel tA A -> mspan fuel tB B -> mspan fuel tC C -> in_ptrdiff C ->
  same_run (c_triangular_matrix_product_right fuel tB tA tC z B A t d C) (triangular_matrix_product_right z B A t d C).
Proof. exact triangular_matrix_product_right_same. Qed.
Print Assumptions C84_triangular_matrix_product_right.

Theorem C84_triangular_matrix_left_product : forall (O : ops) (fuel : nat) (tA tC : ikind) (A : mat O) (t : triangle) (d : diagonal) (C : mat O),
  mspan fuel tA A -> mspan fuel tC C ->
  same_run (c_triangular_matrix_left_product fuel tA tC A t d C) (triangular_matrix_left_product A t d C).
Proof. exact triangular_matrix_left_product_same. Qed.
Print Assumptions C84_triangular_matrix_left_product.

Theorem C84_triangular_matrix_right_product : forall (O : ops) (fuel : nat) (tA tC : ikind) (A : mat O) (t : triangle) (d : diagonal) (C : mat O),
  mspan fuel tA A -> mspan fuel tC C ->
  same_run (c_triangular_matrix_right_product fuel tA tC A t d C) (triangular_matrix_right_product A t d C).
Proof. exact triangular_matrix_right_product_same. Qed.
Print Assumptions C84_triangular_matrix_right_product.

Theorem C84_symmetric_matrix_product_left : forall (O : ops) (fuel : nat) (tA tB tC : ikind) (A : mat O) (t : triangle) (B C : mat O),
  mspan fuel tA A -> mspan fuel tB B -> mspan fuel tC C ->
  same_run (c_symmetric_matrix_product_left fuel tA tB tC A t B C) (symmetric_matrix_product_left A t B C).
Proof. exact symmetric_matrix_product_left_same. Qed.
Print Assumptions C84_symmetric_matrix_product_left.

Theorem C84_symmetric_matrix_product_right : forall (O : ops) (fuel : nat) (tB tA tC : ikind) (B A : mat O) (t : triangle) (C : mat O),
  mspan fuel tB B -> mspan fuel tA A -> mspan fuel tC C ->
  same_run (c_symmetric_matrix_product_right fuel tB tA tC B A t C) (symmetric_matrix_product_right B A t C).
Proof. exact symmetric_matrix_product_right_same. Qed.
Print Assumptions C84_symmetric_matrix_product_right.

Theorem C84_hermitian_matrix_product_left : forall (O : ops) (fuel : nat) (tA tB tC : ikind) (A : mat O) (t : triangle) (B C : mat O),
  mspan fuel tA A -> mspan fuel tB B -> mspan fuel tC C ->
  same_run (c_hermitian_matrix_product_left fuel tA tB tC A t B C) (hermitian_matrix_product_left A t B C).
Proof. exact hermitian_matrix_product_left_same. Qed.
Print Assumptions C84_hermitian_matrix_product_left.

Theorem C84_hermitian_matrix_product_right : forall (O : ops) (fuel : nat) (tB tA tC : ikind) (B A : mat O) (t : triangle) (C : mat O),
  mspan fuel tB B -> mspan fuel tA A -> mspan fuel tC C ->
  same_run (c_hermitian_matrix_product_right fuel tB tA tC B A t C) (hermitian_matrix_product_right B A t C).
Proof. exact hermitian_matrix_product_right_same. Qed.
Print Assumptions C84_hermitian_matrix_product_right.

Theorem C84_symmetric_matrix_rank_k_update_alpha : forall (O : ops) (fuel : nat) (tA tC : ikind) (alpha : O) (A C : mat O) (t : triangle),
  mspan fuel tA A -> mspan fuel tC C ->
  same_run (c_symmetric_matrix_rank_k_update_alpha fuel tA tC alpha A C t) (symmetric_matrix_rank_k_update_alpha alpha A C t).
Proof. exact symmetric_matrix_rank_k_update_alpha_same. Qed.
Print Assumptions C84_symmetric_matrix_rank_k_update_alpha.

Theorem C84_symmetric_matrix_rank_k_update : forall (O : ops) (fuel : nat) (tA tC : ikind) (A C : mat O) (t : triangle),
  mspan fuel tA A -> mspan fuel tC C ->
  same_run (c_symmetric_matrix_rank_k_update fuel tA tC A C t) (symmetric_matrix_rank_k_update A C t).
Proof. exact symmetric_matrix_rank_k_update_same. Qed.
Print Assumptions C84_symmetric_matrix_rank_k_update.

Theorem C84_hermitian_matrix_rank_k_update_alpha : forall (O : ops) (fuel : nat) (tA tC : ikind) (alpha : O) (A C : mat O) (t : triangle),
  mspan fuel tA A -> mspan fuel tC C ->
  same_run (c_hermitian_matrix_rank_k_update_alpha fuel tA tC alpha A C t) (hermitian_matrix_rank_k_update_alpha alpha A C t).
Proof. exact hermitian_matrix_rank_k_update_alpha_same. Qed.
Print Assumptions C84_hermitian_matrix_rank_k_update_alpha.

Theorem C84_hermitian_matrix_rank_k_update : forall (O : ops) (fuel : nat) (tA tC : ikind) (A C : mat O) (t : triangle),
  mspan fuel tA A -> mspan fuel tC C ->
  same_run (c_hermitian_matrix_rank_k_update fuel tA tC A C t) (hermitian_matrix_rank_k_update A C t).
Proof. exact hermitian_matrix_rank_k_update_same. Qed.
Print Assumptions C84_hermitian_matrix_rank_k_update.

Theorem C84_symmetric_matrix_rank_2k_update : forall (O : ops) (fuel : nat) (tA tB tC : ikind) (A B C : mat O) (t : triangle),
  mspan fuel tA A -> mspan fuel tB B -> mspan fuel tC C ->
  same_run (c_symmetric_matrix_rank_2k_update fuel tA tB tC A B C t) (symmetric_matrix_rank_2k_update A B C t).
Proof. exact symmetric_matrix_rank_2k_update_same. Qed.
Print Assumptions C84_symmetric_matrix_rank_2k_update.

Theorem C84_hermitian_matrix_rank_2k_update : forall (O : ops) (fuel : nat) (tA tB tC : ikind) (A B C : mat O) (t : triangle),
  mspan fuel tA A -> mspan fuel tB B -> mspan fuel tC C ->
  same_run (c_hermitian_matrix_rank_2k_update fuel tA tB tC A B C t) (hermitian_matrix_rank_2k_update A B C t).
Proof. exact hermitian_matrix_rank_2k_update_same. Qed.
Print Assumptions C84_hermitian_matrix_rank_2k_update.

Theorem C84_trsm_upper_left : forall (O : ops) (fuel : nat) (tA tB tX : ikind) (z : ity) (A : mat O) (d : diagonal) (B X : mat O),
  kind_of z = common_types tA [tB; tX] -> mspan fuel tA A -> mspan fuel tB B -> mspan fuel tX X ->
  same_run (c_trsm_upper_left fuel z A d B X) (trsm_upper_left z A d B X).
Proof. exact trsm_upper_left_same. Qed.
Print Assumptions C84_trsm_upper_left.

Theorem C84_trsm_lower_left : forall (O : ops) (fuel : nat) (tA tB tX : ikind) (z : ity) (A : mat O) (d : diagonal) (B X : mat O),
  kind_of z = common_types tA [tB; tX] -> mspan fuel tA A -> mspan fuel tB B -> mspan fuel tX X ->
  same_run (c_trsm_lower_left fuel z A d B X) (trsm_lower_left A d B X).
Proof. exact trsm_lower_left_same. Qed.
Print Assumptions C84_trsm_lower_left.

Theorem C84_trsm_upper_right : forall (O : ops) (fuel : nat) (tA tB tX : ikind) (z : ity) (A : mat O) (d : diagonal) (B X : mat O),
  kind_of z = common_types tA [tB; tX] -> mspan fuel tA A -> mspan fuel tB B -> mspan fuel tX X ->
  same_run (c_trsm_upper_right fuel z A d B X) (trsm_upper_right A d B X).
Proof. exact trsm_upper_right_same. Qed.
Print Assumptions C84_trsm_upper_right.

Theorem C84_trsm_lower_right : forall (O : ops) (fuel : nat) (tA tB tX : ikind) (z : ity) (A : mat O) (d : diagonal) (B X : mat O),
  kind_of z = common_types tA [tB; tX] -> mspan fuel tA A -> mspan fuel tB B -> mspan fuel tX X ->
  same_run (c_trsm_lower_right fuel z A d B X) (trsm_lower_right z A d B X).
Proof. exact trsm_lower_right_same. Qed.
Print Assumptions C84_trsm_lower_right.

Theorem C84_vector_abs_sum : forall (O : ops) (F : rops) (M : mags O F) (fuel : nat) (tv : ikind) (v : vec O) (init : F),
  vspan fuel tv v ->
  same_run (c_vector_abs_sum fuel M tv v init) (vector_abs_sum M v init).
Proof. exact vector_abs_sum_same. Qed.
Print Assumptions C84_vector_abs_sum.

Theorem C84_vector_sum_of_squares : forall (O : ops) (F : rops) (M : mags O F) (fuel : nat) (tx : ikind) (x : vec O) (init : sum_of_squares_result),
  vspan fuel tx x ->
  same_run (c_vector_sum_of_squares fuel M tx x init) (vector_sum_of_squares M x init).
Proof. exact vector_sum_of_squares_same. Qed.
Print Assumptions C84_vector_sum_of_squares.

Theorem C84_matrix_frob_norm : forall (O : ops) (F : rops) (M : mags O F) (fuel : nat) (tA : ikind) (A : mat O) (init : F),
  mspan fuel tA A ->
  same_run (c_matrix_frob_norm fuel M tA A init) (matrix_frob_norm M A init).
Proof. exact matrix_frob_norm_same. Qed.
Print Assumptions C84_matrix_frob_norm.

Theorem C84_matrix_inf_norm : forall (O : ops) (F : rops) (M : mags O F) (fuel : nat) (tA : ikind) (A : mat O) (init : F),
  mspan fuel tA A ->
  same_run (c_matrix_inf_norm fuel M tA A init) (matrix_inf_norm M A init).
Proof. exact matrix_inf_norm_same. Qed.
Print Assumptions C84_matrix_inf_norm.

Theorem C84_matrix_one_norm : forall (O : ops) (F : rops) (M : mags O F) (fuel : nat) (tA : ikind) (A : mat O) (init : F),
  mspan fuel tA A ->
  same_run (c_matrix_one_norm fuel M tA A init) (matrix_one_norm M A init).
Proof. exact matrix_one_norm_same. Qed.
Print Assumptions C84_matrix_one_norm.

(** So every property of a run of the model is one of the run with the counters of the source. *)
Theorem C84_transfer : forall T A (p q : prog T A) m (Q : A -> mem T -> Prop), same_run p q -> succeeds q m Q -> succeeds p m Q.
Proof. exact same_succeeds. Qed.
Print Assumptions C84_transfer.

(** Index types of 8, 16 and 64 bits, mixed: the 2 x 3 matrix A at 0 times x at 6 is stored to y at 9. *)
Example C84_case :
  let m : mem zops := mem_of [1;2;3; 4;5;6; 1;10;100; 7;8] in
  let A : mat zops := row_major 0 2 3 in let x : vec zops := vec_at 6 3 in let y : vec zops := vec_at 9 2 in
  mspan 4 (IK true 8) A /\ vspan 4 (IK false 16) x /\ vspan 4 (IK true 64) y /\
  succeeds (c_matrix_vector_product 4 (IK true 8) (IK false 16) (IK true 64) A x y) m (fun _ m' =>
    vec_holds m' y (@velt zops [321; 654])).
Proof.
  intros m A x y. repeat (split; [unfold mspan, vspan, extent_of, representable, in_range, int_max; simpl; lia|]).
  do 2 eexists; split; [reflexivity|]. concrete.
Qed.
(** A descending loop and an unsigned counter: x := U^-1 b with U = [2 6; 0 3], index types of 8 bits. *)
Example C84_solve_case :
  let m : mem zops := mem_of [2; 6; 0; 3; 4; 9; 0; 0] in
  let A : mat zops := Mat 0 2 2 LRight ADefault in let b : vec zops := vec_at 4 2 in let x : vec zops := vec_at 6 2 in
  kind_of U8 = common_types (IK false 8) [IK false 8; IK false 8] /\
  mspan 3 (IK false 8) A /\ vspan 3 (IK false 8) b /\ vspan 3 (IK false 8) x /\
  succeeds (c_trsv_upper 3 U8 (fun p q => p / q)%sc A Explicit b x) m (fun _ m' =>
    vec_holds m' x (@velt zops [-7; 3])).
Proof.
  intros m A b x. split; [reflexivity|]. repeat (split; [unfold mspan, vspan, extent_of, representable, in_range, int_max; simpl; lia|]).
  do 2 eexists; split; [reflexivity|]. concrete.
Qed.
(** The counters are not ideal: one of 8 bits never reaches a bound of 300 (beyond what an index type of 8 bits can represent),
    and one of type signed int that reaches 2^31 - 1 overflows. *)
Example C84_counters :
  run (c_for (O := zops) 1000 (IK false 8) (at_ 0) (IK false 16, at_ 300) (fun _ => Ret tt)) (mem_of []) = Err OutOfFuel (mem_of []) /\
  inc (IK true 32) (2 ^ 31 - 1) = None /\ inc (IK false 32) (2 ^ 32 - 1) = Some 0 /\ inc (IK true 8) 127 = Some (-128) /\
  less (IK true 32) (IK false 32) (-1) 0 = false /\ less (IK true 8) (IK false 8) (-1) 0 = true.
Proof. repeat split; vm_compute; reflexivity. Qed.

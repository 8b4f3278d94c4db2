(** C93: calls that mean the same give the same result, bit for bit: no law of arithmetic is assumed (only, where stated,
    that products commute), so the theorems hold for floating-point elements. *)
From Coq Require Import List Arith ZArith Lia Bool.
From Flocq Require Import Core.Core IEEE754.BinarySingleNaN.
From Verif Require Import Mem Scalar View Spec SpecAgree Idx Ieee Wp Norm Blas1 Blas2 Blas3 Inst PropBlas2 PropFloat PropNormF PfAgree PfAgree2.
Import ListNotations.
Local Open Scope nat_scope.
Local Open Scope sc_scope.

(** ** Inner products *)
(** dot(x,y) = dot(y,x) where products commute. *)
Theorem C93_dot_swap : forall (O : ops) (m : mem O) x y f g init, mul_commutes O -> vext x = vext y -> vec_holds m x f -> vec_holds m y g ->
  exists r, run (dot x y init) m = Ok r m /\ run (dot y x init) m = Ok r m.
Proof. exact (@dot_swap). Qed.
Print Assumptions C93_dot_swap.

(** Multiplication of IEEE numbers commutes (the model has a single NaN). *)
Theorem C93_ieee_commutes : forall prec emax (Hp : Prec_gt_0 prec) (He : Prec_lt_emax prec emax), mul_commutes (ieee_ops prec emax Hp He).
Proof. exact (@ieee_commutes). Qed.
Print Assumptions C93_ieee_commutes.

(** 2^53 and 1 cannot be added exactly: 2^53 * 1 + 1 * 1 + (-2^53) * 1 is 0 in the order of the loop. *)
Example C93_dot_case :
  let m : mem F64 := mem_of [fl 1 53; fl 1 0; fl (-1) 53; fl 1 0; fl 1 0; fl 1 0]%Z in
  exists r, run (dot (vec_at 0 3) (vec_at 3 3) (fl 0 0)) m = Ok r m /\ run (dot (vec_at 3 3) (vec_at 0 3) (fl 0 0)) m = Ok r m.
Proof.
  intros. eapply C93_dot_swap with (f := fv [fl 1 53; fl 1 0; fl (-1) 53]%Z) (g := fv [fl 1 0; fl 1 0; fl 1 0]%Z);
    [apply C93_ieee_commutes|concrete..].
Qed.

(** The matrix-vector product is one inner product per row. *)
Theorem C93_gemv_rows : forall (O : ops) (m : mem O) A x y a f,
  vext x = ext1 A -> vext y = ext0 A ->
  mat_holds m A a -> vec_holds m x f -> vwritable y -> allocated m (vcells y) ->
  disjoint (mcells A) (vcells y) -> disjoint (vcells x) (vcells y) ->
  agree (matrix_vector_product A x y)
    (for_range 0 (ext0 A) (fun i => bind (dot (row A i) x zero) (fun r => vset y i r))) m.
Proof. exact (@gemv_rows). Qed.
Print Assumptions C93_gemv_rows.

Theorem C93_gemv_updating_rows : forall (O : ops) (m : mem O) A x z a f g,
  vext x = ext1 A -> vext z = ext0 A ->
  mat_holds m A a -> vec_holds m x f -> vec_holds m z g -> vwritable z ->
  disjoint (mcells A) (vcells z) -> disjoint (vcells x) (vcells z) ->
  agree (matrix_vector_product_upd A x z z)
    (for_range 0 (ext0 A) (fun i => bind (vget z i) (fun v => bind (dot (row A i) x v) (fun r => vset z i r)))) m.
Proof. exact (@gemv_upd_rows). Qed.
Print Assumptions C93_gemv_updating_rows.

Definition m93 : mem F64 := mem_of [fl 1 53; fl 1 0; fl 1 0; fl (-1) 53;  fl 3 0; fl 5 (-1);  fl 7 0; fl 9 0;  fl 1 (-3); fl 1 2]%Z.
Definition a93 : nat -> nat -> F64 := fm [[fl 1 53; fl 1 0]; [fl 1 0; fl (-1) 53]]%Z.
Example C93_gemv_case :
  agree (matrix_vector_product (row_major 0 2 2) (vec_at 4 2) (vec_at 6 2))
    (for_range 0 2 (fun i => bind (dot (row (row_major 0 2 2) i) (vec_at 4 2) zero) (fun r => vset (vec_at 6 2) i r))) m93 /\
  agree (matrix_vector_product_upd (row_major 0 2 2) (vec_at 4 2) (vec_at 6 2) (vec_at 6 2))
    (for_range 0 2 (fun i => bind (vget (vec_at 6 2) i) (fun v =>
       bind (dot (row (row_major 0 2 2) i) (vec_at 4 2) v) (fun r => vset (vec_at 6 2) i r)))) m93.
Proof.
  split.
  - apply (C93_gemv_rows F64 m93 (row_major 0 2 2) (vec_at 4 2) (vec_at 6 2) a93 (fv [fl 3 0; fl 5 (-1)]%Z)); concrete.
  - apply (C93_gemv_updating_rows F64 m93 (row_major 0 2 2) (vec_at 4 2) (vec_at 6 2) a93 (fv [fl 3 0; fl 5 (-1)]%Z) (fv [fl 7 0; fl 9 0]%Z)); concrete.
Qed.

(** ** Updating is copying followed by updating in place *)
Theorem C93_gemv_copy : forall (O : ops) (m : mem O) A x y z a f g,
  vext x = ext1 A -> vext y = ext0 A -> vext z = ext0 A ->
  mat_holds m A a -> vec_holds m x f -> vec_holds m y g -> vwritable z -> allocated m (vcells z) ->
  disjoint (mcells A) (vcells z) -> disjoint (vcells x) (vcells z) -> disjoint_or_aligned_v y z ->
  agree (matrix_vector_product_upd A x y z) (bind (copy_1 y z) (fun _ => matrix_vector_product_upd A x z z)) m.
Proof. exact (@gemv_upd_copy). Qed.
Print Assumptions C93_gemv_copy.

Theorem C93_symv_hemv_copy : forall (O : ops) (m : mem O) A t x y z a f g,
  ext0 A = ext1 A -> vext x = ext1 A -> vext y = ext0 A -> vext z = ext0 A ->
  mat_holds_on m A (in_tri t) a -> vec_holds m x f -> vec_holds m y g -> vwritable z -> allocated m (vcells z) ->
  disjoint (mcells_on A (in_tri t)) (vcells z) -> disjoint (vcells x) (vcells z) -> disjoint_or_aligned_v y z ->
  agree (symmetric_matrix_vector_product_upd A t x y z) (bind (copy_1 y z) (fun _ => symmetric_matrix_vector_product_upd A t x z z)) m /\
  agree (hermitian_matrix_vector_product_upd A t x y z) (bind (copy_1 y z) (fun _ => hermitian_matrix_vector_product_upd A t x z z)) m.
Proof. exact (@symv_upd_copy). Qed.
Print Assumptions C93_symv_hemv_copy.

Theorem C93_trmv_copy : forall (O : ops) (m : mem O) A t d x y z a f g,
  ext0 A = ext1 A -> vext x = ext1 A -> vext y = ext0 A -> vext z = ext0 A ->
  mat_holds_on m A (stored t d) a -> vec_holds m x f -> vec_holds m y g -> vwritable z -> allocated m (vcells z) ->
  disjoint (mcells_on A (stored t d)) (vcells z) -> disjoint (vcells x) (vcells z) -> disjoint_or_aligned_v y z ->
  agree (triangular_matrix_vector_product_upd A t d x y z)
    (bind (copy_1 y z) (fun _ => triangular_matrix_vector_product_upd A t d x z z)) m.
Proof. exact (@trmv_upd_copy). Qed.
Print Assumptions C93_trmv_copy.

Theorem C93_gemm_copy : forall (O : ops) (m : mem O) A B E C a b e,
  ext0 C = ext0 A -> ext1 A = ext0 B -> ext1 C = ext1 B -> ext0 E = ext0 C -> ext1 E = ext1 C ->
  mat_holds m A a -> mat_holds m B b -> mat_holds m E e -> mwritable C -> allocated m (mcells C) ->
  disjoint (mcells A) (mcells C) -> disjoint (mcells B) (mcells C) -> disjoint_or_aligned_m E C ->
  agree (matrix_product_upd A B E C) (bind (copy_2 E C) (fun _ => matrix_product_upd A B C C)) m.
Proof. exact (@gemm_upd_copy). Qed.
Print Assumptions C93_gemm_copy.

Example C93_copy_case :
  agree (matrix_vector_product_upd (row_major 0 2 2) (vec_at 4 2) (vec_at 6 2) (vec_at 8 2))
    (bind (copy_1 (vec_at 6 2) (vec_at 8 2)) (fun _ => matrix_vector_product_upd (row_major 0 2 2) (vec_at 4 2) (vec_at 8 2) (vec_at 8 2))) m93 /\
  (agree (symmetric_matrix_vector_product_upd (row_major 0 2 2) Lower (vec_at 4 2) (vec_at 6 2) (vec_at 8 2))
    (bind (copy_1 (vec_at 6 2) (vec_at 8 2)) (fun _ => symmetric_matrix_vector_product_upd (row_major 0 2 2) Lower (vec_at 4 2) (vec_at 8 2) (vec_at 8 2))) m93 /\
   agree (hermitian_matrix_vector_product_upd (row_major 0 2 2) Lower (vec_at 4 2) (vec_at 6 2) (vec_at 8 2))
    (bind (copy_1 (vec_at 6 2) (vec_at 8 2)) (fun _ => hermitian_matrix_vector_product_upd (row_major 0 2 2) Lower (vec_at 4 2) (vec_at 8 2) (vec_at 8 2))) m93) /\
  agree (triangular_matrix_vector_product_upd (row_major 0 2 2) Upper ImplicitUnit (vec_at 4 2) (vec_at 6 2) (vec_at 8 2))
    (bind (copy_1 (vec_at 6 2) (vec_at 8 2)) (fun _ => triangular_matrix_vector_product_upd (row_major 0 2 2) Upper ImplicitUnit (vec_at 4 2) (vec_at 8 2) (vec_at 8 2))) m93 /\
  agree (matrix_product_upd (row_major 0 2 2) (row_major 4 2 1) (col_major 6 2 1) (row_major 8 2 1))
    (bind (copy_2 (col_major 6 2 1) (row_major 8 2 1)) (fun _ => matrix_product_upd (row_major 0 2 2) (row_major 4 2 1) (row_major 8 2 1) (row_major 8 2 1))) m93.
Proof.
  pose (f := fv [fl 3 0; fl 5 (-1)]%Z). pose (g := fv [fl 7 0; fl 9 0]%Z). repeat match goal with |- _ /\ _ => split end.
  - apply (C93_gemv_copy F64 m93 (row_major 0 2 2) (vec_at 4 2) (vec_at 6 2) (vec_at 8 2) a93 f g); concrete.
  - apply (C93_symv_hemv_copy F64 m93 (row_major 0 2 2) Lower (vec_at 4 2) (vec_at 6 2) (vec_at 8 2) a93 f g); concrete.
  - apply (C93_symv_hemv_copy F64 m93 (row_major 0 2 2) Lower (vec_at 4 2) (vec_at 6 2) (vec_at 8 2) a93 f g); concrete.
  - apply (C93_trmv_copy F64 m93 (row_major 0 2 2) Upper ImplicitUnit (vec_at 4 2) (vec_at 6 2) (vec_at 8 2) a93 f g); concrete.
  - apply (C93_gemm_copy F64 m93 (row_major 0 2 2) (row_major 4 2 1) (col_major 6 2 1) (row_major 8 2 1) a93
      (fm [[fl 3 0]; [fl 5 (-1)]]%Z) (fm [[fl 7 0]; [fl 9 0]]%Z)); concrete.
Qed.

(** ** Matrix products column by column *)
Theorem C93_gemm_columns : forall (O : ops) (m : mem O) A B C a b,
  ext0 C = ext0 A -> ext1 A = ext0 B -> ext1 C = ext1 B ->
  mat_holds m A a -> mat_holds m B b -> mwritable C -> allocated m (mcells C) ->
  disjoint (mcells A) (mcells C) -> disjoint (mcells B) (mcells C) ->
  agree (matrix_product A B C) (for_range 0 (ext1 C) (fun j => matrix_vector_product A (col B j) (col C j))) m.
Proof. exact (@gemm_columns). Qed.
Print Assumptions C93_gemm_columns.

Theorem C93_symm_hemm_columns : forall (O : ops) (m : mem O) A t B C a b,
  ext0 A = ext1 A -> ext0 C = ext0 A -> ext1 A = ext0 B -> ext1 C = ext1 B ->
  mat_holds_on m A (in_tri t) a -> mat_holds m B b -> mwritable C -> allocated m (mcells C) ->
  disjoint (mcells_on A (in_tri t)) (mcells C) -> disjoint (mcells B) (mcells C) ->
  agree (symmetric_matrix_product_left A t B C)
    (for_range 0 (ext1 C) (fun j => symmetric_matrix_vector_product A t (col B j) (col C j))) m /\
  agree (hermitian_matrix_product_left A t B C)
    (for_range 0 (ext1 C) (fun j => hermitian_matrix_vector_product A t (col B j) (col C j))) m.
Proof. exact (@symm_columns). Qed.
Print Assumptions C93_symm_hemm_columns.

(** For an implicit unit diagonal of an upper triangle the two algorithms add the diagonal term at different places
    ([C93_trmm_needs_lower] below), hence the hypothesis. *)
Theorem C93_trmm_columns : forall (O : ops) ty (m : mem O) A t d B C a b,
  fits ty (ext0 C) -> (d = ImplicitUnit -> t = Lower) ->
  ext0 A = ext1 A -> ext0 C = ext0 A -> ext1 A = ext0 B -> ext1 C = ext1 B ->
  mat_holds_on m A (stored t d) a -> mat_holds m B b -> mwritable C -> allocated m (mcells C) ->
  disjoint (mcells_on A (stored t d)) (mcells C) -> disjoint (mcells B) (mcells C) ->
  agree (triangular_matrix_product_left ty A t d B C)
    (for_range 0 (ext1 C) (fun j => triangular_matrix_vector_product A t d (col B j) (col C j))) m.
Proof. exact (@trmm_columns). Qed.
Print Assumptions C93_trmm_columns.

Definition n93 : mem F64 := mem_of [fl 1 53; fl 1 0; fl 1 0; fl (-1) 53;  fl 3 0; fl 5 (-1); fl 7 0; fl 9 0;  fl 0 0; fl 1 0; fl 0 0; fl 0 0]%Z.
Definition b93 : nat -> nat -> F64 := fm [[fl 3 0; fl 5 (-1)]; [fl 7 0; fl 9 0]]%Z.
Example C93_columns_case :
  let A : mat F64 := row_major 0 2 2 in let B : mat F64 := row_major 4 2 2 in let C : mat F64 := col_major 8 2 2 in
  agree (matrix_product A B C) (for_range 0 2 (fun j => matrix_vector_product A (col B j) (col C j))) n93 /\
  agree (symmetric_matrix_product_left A Upper B C) (for_range 0 2 (fun j => symmetric_matrix_vector_product A Upper (col B j) (col C j))) n93 /\
  agree (triangular_matrix_product_left U32 A Upper Explicit B C)
    (for_range 0 2 (fun j => triangular_matrix_vector_product A Upper Explicit (col B j) (col C j))) n93.
Proof.
  intros A B C. repeat match goal with |- _ /\ _ => split end.
  - apply (C93_gemm_columns F64 n93 A B C a93 b93); concrete.
  - apply (C93_symm_hemm_columns F64 n93 A Upper B C a93 b93); concrete.
  - apply (C93_trmm_columns F64 U32 n93 A Upper Explicit B C a93 b93); [split; vm_compute; discriminate|discriminate|concrete..].
Qed.
(** Upper triangle with implicit unit diagonal, 1, 2^53 and -2^53 in the first row: triangular_matrix_vector_product adds
    the diagonal term first (1 + 2^53) - 2^53 = 0, triangular_matrix_product adds it last (2^53 - 2^53) + 1 = 1. *)
Example C93_trmm_needs_lower :
  let m : mem F64 := mem_of [fl 0 0; fl 1 53; fl (-1) 53; fl 0 0; fl 0 0; fl 0 0; fl 0 0; fl 0 0; fl 0 0;  fl 1 0; fl 1 0; fl 1 0;  fl 0 0; fl 0 0; fl 0 0]%Z in
  let A : mat F64 := row_major 0 3 3 in let B : mat F64 := row_major 9 3 1 in let C : mat F64 := row_major 12 3 1 in
  let at12 (r : res F64 unit) := match r with Ok _ m' => option_map (fun v : binary_float 53 1024 => B2SF v) (m' 12) | Err _ _ => None end in
  at12 (run (triangular_matrix_product_left U64 A Upper ImplicitUnit B C) m) = Some (B2SF (fl 1 0 : binary_float 53 1024)) /\
  at12 (run (triangular_matrix_vector_product A Upper ImplicitUnit (col B 0) (col C 0)) m) = Some (B2SF (fl 0 0 : binary_float 53 1024)).
Proof. split; vm_compute; reflexivity. Qed.

(** ** Products as sequences of outer-product updates *)
Theorem C93_gemm_outer : forall (O : ops) (m : mem O) A B C a b c,
  ext0 C = ext0 A -> ext1 A = ext0 B -> ext1 C = ext1 B ->
  mat_holds m A a -> mat_holds m B b -> mat_holds m C c -> mwritable C ->
  disjoint (mcells A) (mcells C) -> disjoint (mcells B) (mcells C) ->
  agree (matrix_product_upd A B C C) (for_range 0 (ext1 A) (fun k => matrix_rank_1_update (col A k) (row B k) C)) m.
Proof. exact (@gemm_outer). Qed.
Print Assumptions C93_gemm_outer.

Theorem C93_syrk_outer : forall (O : ops) (m : mem O) A C t a c,
  ext0 C = ext1 C -> ext0 A = ext0 C ->
  mat_holds m A a -> mat_holds_on m C (in_tri t) c -> mwritable_on C (in_tri t) ->
  disjoint (mcells A) (mcells_on C (in_tri t)) ->
  agree (symmetric_matrix_rank_k_update A C t) (for_range 0 (ext1 A) (fun k => symmetric_matrix_rank_1_update (col A k) C t)) m.
Proof. exact (@syrk_outer). Qed.
Print Assumptions C93_syrk_outer.

Theorem C93_syrk_alpha_outer : forall (O : ops) (m : mem O) alpha A C t a c,
  ext0 C = ext1 C -> ext0 A = ext0 C ->
  mat_holds m A a -> mat_holds_on m C (in_tri t) c -> mwritable_on C (in_tri t) ->
  disjoint (mcells A) (mcells_on C (in_tri t)) ->
  agree (symmetric_matrix_rank_k_update_alpha alpha A C t)
    (for_range 0 (ext1 A) (fun k => symmetric_matrix_rank_1_update_alpha alpha (col A k) C t)) m.
Proof. exact (@syrk_alpha_outer). Qed.
Print Assumptions C93_syrk_alpha_outer.

Theorem C93_syr2k_outer : forall (O : ops) (m : mem O) A B C t a b c,
  ext0 C = ext1 C -> ext0 A = ext0 C -> ext0 B = ext0 C -> ext1 B = ext1 A ->
  mat_holds m A a -> mat_holds m B b -> mat_holds_on m C (in_tri t) c -> mwritable_on C (in_tri t) ->
  disjoint (mcells A) (mcells_on C (in_tri t)) -> disjoint (mcells B) (mcells_on C (in_tri t)) ->
  agree (symmetric_matrix_rank_2k_update A B C t)
    (for_range 0 (ext1 A) (fun k => symmetric_matrix_rank_2_update (col A k) (col B k) C t)) m.
Proof. exact (@syr2k_outer). Qed.
Print Assumptions C93_syr2k_outer.

Definition c93 : nat -> nat -> F64 := fm [[fl 0 0; fl 0 0]; [fl 1 0; fl 0 0]]%Z.
Example C93_outer_case :
  let A : mat F64 := row_major 0 2 2 in let B : mat F64 := row_major 4 2 2 in let C : mat F64 := col_major 8 2 2 in
  agree (matrix_product_upd A B C C) (for_range 0 2 (fun k => matrix_rank_1_update (col A k) (row B k) C)) n93 /\
  agree (symmetric_matrix_rank_k_update A C Lower) (for_range 0 2 (fun k => symmetric_matrix_rank_1_update (col A k) C Lower)) n93 /\
  agree (symmetric_matrix_rank_k_update_alpha (fl 3 (-2)) A C Upper)
    (for_range 0 2 (fun k => symmetric_matrix_rank_1_update_alpha (fl 3 (-2)) (col A k) C Upper)) n93 /\
  agree (symmetric_matrix_rank_2k_update A B C Lower) (for_range 0 2 (fun k => symmetric_matrix_rank_2_update (col A k) (col B k) C Lower)) n93.
Proof.
  intros A B C. repeat match goal with |- _ /\ _ => split end.
  - apply (C93_gemm_outer F64 n93 A B C a93 b93 c93); concrete.
  - apply (C93_syrk_outer F64 n93 A C Lower a93 c93); concrete.
  - apply (C93_syrk_alpha_outer F64 n93 (fl 3 (-2)) A C Upper a93 c93); concrete.
  - apply (C93_syr2k_outer F64 n93 A B C Lower a93 b93 c93); concrete.
Qed.

(** ** Naming one triangle or using the whole matrix *)
Theorem C93_symv_gemv : forall (O : ops) (m : mem O) A t x y a f,
  ext0 A = ext1 A -> vext x = ext1 A -> vext y = ext0 A -> symmetric (ext0 A) a ->
  mat_holds m A a -> vec_holds m x f -> vwritable y -> allocated m (vcells y) ->
  disjoint (mcells A) (vcells y) -> disjoint (vcells x) (vcells y) ->
  agree (symmetric_matrix_vector_product A t x y) (matrix_vector_product A x y) m.
Proof. exact (@symv_gemv). Qed.
Print Assumptions C93_symv_gemv.

Theorem C93_hemv_gemv : forall (O : ops) (m : mem O) A t x y a f,
  ext0 A = ext1 A -> vext x = ext1 A -> vext y = ext0 A -> hermitian (ext0 A) a ->
  mat_holds m A a -> vec_holds m x f -> vwritable y -> allocated m (vcells y) ->
  disjoint (mcells A) (vcells y) -> disjoint (vcells x) (vcells y) ->
  agree (hermitian_matrix_vector_product A t x y) (matrix_vector_product A x y) m.
Proof. exact (@hemv_gemv). Qed.
Print Assumptions C93_hemv_gemv.

Theorem C93_updating_gemv : forall (O : ops) (m : mem O) A t x y z a f g,
  ext0 A = ext1 A -> vext x = ext1 A -> vext y = ext0 A -> vext z = ext0 A ->
  mat_holds m A a -> vec_holds m x f -> vec_holds m y g -> vwritable z -> allocated m (vcells z) ->
  disjoint (mcells A) (vcells z) -> disjoint (vcells x) (vcells z) -> disjoint_or_aligned_v y z ->
  (symmetric (ext0 A) a -> agree (symmetric_matrix_vector_product_upd A t x y z) (matrix_vector_product_upd A x y z) m) /\
  (hermitian (ext0 A) a -> agree (hermitian_matrix_vector_product_upd A t x y z) (matrix_vector_product_upd A x y z) m).
Proof. exact (@symv_upd_gemv). Qed.
Print Assumptions C93_updating_gemv.

Theorem C93_symm_hemm_gemm : forall (O : ops) (m : mem O) A t B C a b,
  ext0 A = ext1 A -> ext0 C = ext0 A -> ext1 A = ext0 B -> ext1 C = ext1 B ->
  mat_holds m A a -> mat_holds m B b -> mwritable C -> allocated m (mcells C) ->
  disjoint (mcells A) (mcells C) -> disjoint (mcells B) (mcells C) ->
  (symmetric (ext0 A) a -> agree (symmetric_matrix_product_left A t B C) (matrix_product A B C) m) /\
  (hermitian (ext0 A) a -> agree (hermitian_matrix_product_left A t B C) (matrix_product A B C) m).
Proof. exact (@symm_gemm). Qed.
Print Assumptions C93_symm_hemm_gemm.

Theorem C93_symm_hemm_right_gemm : forall (O : ops) (m : mem O) B A t C a b,
  ext0 A = ext1 A -> ext0 C = ext0 B -> ext1 B = ext0 A -> ext1 C = ext1 A ->
  mat_holds m A a -> mat_holds m B b -> mwritable C -> allocated m (mcells C) ->
  disjoint (mcells A) (mcells C) -> disjoint (mcells B) (mcells C) ->
  (symmetric (ext0 A) a -> agree (symmetric_matrix_product_right B A t C) (matrix_product B A C) m) /\
  (hermitian (ext0 A) a -> agree (hermitian_matrix_product_right B A t C) (matrix_product B A C) m).
Proof. exact (@symm_gemm_right). Qed.
Print Assumptions C93_symm_hemm_right_gemm.

(** The triangle of C that the symmetric update writes is that of the general product with the transpose. *)
Theorem C93_syrk_gemm : forall (O : ops) fp (m : mem O) A At C t a c,
  transposed fp A = Some At -> layout_ok (mlay A) (ext0 A) (ext1 A) ->
  ext0 C = ext1 C -> ext0 A = ext0 C ->
  mat_holds m A a -> mat_holds m C c -> mwritable C -> disjoint (mcells A) (mcells C) ->
  agree_on C (in_tri t) (symmetric_matrix_rank_k_update A C t) (matrix_product_upd A At C C) m.
Proof. exact (@syrk_gemm). Qed.
Print Assumptions C93_syrk_gemm.

Lemma a93_sym : symmetric 2 a93.
Proof. intros i j Hi Hj. destruct i as [|[|]]; [| |lia]; (destruct j as [|[|]]; [| |lia]); reflexivity. Qed.
Lemma a93_herm : hermitian 2 a93.
Proof. split; [reflexivity|]. intros i j Hi Hj _. apply (a93_sym i j); auto. Qed.
Example C93_whole_case :
  let A : mat F64 := row_major 0 2 2 in let B : mat F64 := row_major 4 2 2 in let C : mat F64 := col_major 8 2 2 in
  (forall t, agree (symmetric_matrix_vector_product A t (vec_at 4 2) (vec_at 8 2)) (matrix_vector_product A (vec_at 4 2) (vec_at 8 2)) n93) /\
  (forall t, agree (hermitian_matrix_vector_product A t (vec_at 4 2) (vec_at 8 2)) (matrix_vector_product A (vec_at 4 2) (vec_at 8 2)) n93) /\
  (forall t, agree (symmetric_matrix_vector_product_upd A t (vec_at 4 2) (vec_at 6 2) (vec_at 8 2))
    (matrix_vector_product_upd A (vec_at 4 2) (vec_at 6 2) (vec_at 8 2)) n93) /\
  (forall t, agree (hermitian_matrix_product_left A t B C) (matrix_product A B C) n93) /\
  (forall t, agree (symmetric_matrix_product_right B A t C) (matrix_product B A C) n93) /\
  agree_on C (in_tri Lower) (symmetric_matrix_rank_k_update A C Lower) (matrix_product_upd A (col_major 0 2 2) C C) n93.
Proof.
  intros A B C. pose (f := fv [fl 3 0; fl 5 (-1)]%Z). pose (g := fv [fl 7 0; fl 9 0]%Z).
  repeat match goal with |- _ /\ _ => split end; try intros t.
  - apply (C93_symv_gemv F64 n93 A t (vec_at 4 2) (vec_at 8 2) a93 f); first [exact a93_sym | concrete].
  - apply (C93_hemv_gemv F64 n93 A t (vec_at 4 2) (vec_at 8 2) a93 f); first [exact a93_herm | concrete].
  - edestruct (C93_updating_gemv F64 n93 A t (vec_at 4 2) (vec_at 6 2) (vec_at 8 2) a93 f g) as [H1 H2]; [concrete..|apply H1; exact a93_sym].
  - edestruct (C93_symm_hemm_gemm F64 n93 A t B C a93 b93) as [H1 H2]; [concrete..|apply H2; exact a93_herm].
  - edestruct (C93_symm_hemm_right_gemm F64 n93 B A t C a93 b93) as [H1 H2]; [concrete..|apply H1; exact a93_sym].
  - apply (C93_syrk_gemm F64 true n93 A (col_major 0 2 2) C Lower a93 c93); first [exact I | concrete].
Qed.

(** ** Transposed calls, where products commute *)
Theorem C93_gemm_transposed : forall (O : ops) fa fb fc (m : mem O) A B C At Bt Ct a b,
  mul_commutes O ->
  transposed fa A = Some At -> transposed fb B = Some Bt -> transposed fc C = Some Ct ->
  layout_ok (mlay A) (ext0 A) (ext1 A) -> layout_ok (mlay B) (ext0 B) (ext1 B) -> layout_ok (mlay C) (ext0 C) (ext1 C) ->
  ext0 C = ext0 A -> ext1 A = ext0 B -> ext1 C = ext1 B ->
  mat_holds m A a -> mat_holds m B b -> mwritable C -> allocated m (mcells C) ->
  disjoint (mcells A) (mcells C) -> disjoint (mcells B) (mcells C) ->
  agree (matrix_product A B C) (matrix_product Bt At Ct) m.
Proof. exact (@gemm_trans). Qed.
Print Assumptions C93_gemm_transposed.

Theorem C93_symm_transposed : forall (O : ops) fb fc (m : mem O) B A t C Bt Ct a b,
  mul_commutes O -> transposed fb B = Some Bt -> transposed fc C = Some Ct ->
  layout_ok (mlay B) (ext0 B) (ext1 B) -> layout_ok (mlay C) (ext0 C) (ext1 C) ->
  ext0 A = ext1 A -> ext0 C = ext0 B -> ext1 B = ext0 A -> ext1 C = ext1 A ->
  mat_holds_on m A (in_tri t) a -> mat_holds m B b -> mwritable C -> allocated m (mcells C) ->
  disjoint (mcells_on A (in_tri t)) (mcells C) -> disjoint (mcells B) (mcells C) ->
  agree (symmetric_matrix_product_right B A t C) (symmetric_matrix_product_left A t Bt Ct) m.
Proof. exact (@symm_trans). Qed.
Print Assumptions C93_symm_transposed.

Theorem C93_trsm_transposed : forall (O : ops) fa fb fx ty ty' (m : mem O) A t d B X At Bt Xt a b,
  mul_commutes O ->
  transposed fa A = Some At -> transposed fb B = Some Bt -> transposed fx X = Some Xt ->
  layout_ok (mlay A) (ext0 A) (ext1 A) -> layout_ok (mlay B) (ext0 B) (ext1 B) -> layout_ok (mlay X) (ext0 X) (ext1 X) ->
  (t = Lower -> fits (make_signed ty) (ext0 A)) ->
  fits ty' (ext0 A) -> (ext0 A = 0 -> t = Lower -> ty' <> U32) ->
  ext0 A = ext1 A -> ext1 B = ext0 A -> ext1 X = ext0 A -> ext0 X = ext0 B ->
  mat_holds_on m A (stored t d) a -> mat_holds m B b -> mwritable X -> allocated m (mcells X) ->
  disjoint (mcells_on A (stored t d)) (mcells X) -> disjoint_or_aligned_m B X ->
  agree (triangular_matrix_matrix_right_solve ty A t d B X)
    (triangular_matrix_matrix_left_solve ty' At (SpecAgree.flip t) d Bt Xt) m.
Proof. exact (@trsm_trans). Qed.
Print Assumptions C93_trsm_transposed.

(** Row by row, a solve with the transposed matrix. *)
Theorem C93_trsm_rows : forall (O : ops) fa ty ty' (m : mem O) A t d B X At a b,
  mul_commutes O -> transposed fa A = Some At -> layout_ok (mlay A) (ext0 A) (ext1 A) ->
  (t = Lower -> fits (make_signed ty) (ext0 A)) ->
  fits ty' (ext0 A) -> (ext0 A = 0 -> t = Lower -> ty' <> U32) ->
  ext0 A = ext1 A -> ext1 B = ext0 A -> ext1 X = ext0 A -> ext0 X = ext0 B ->
  mat_holds_on m A (stored t d) a -> mat_holds m B b -> mwritable X -> allocated m (mcells X) ->
  disjoint (mcells_on A (stored t d)) (mcells X) -> disjoint (mcells B) (mcells X) ->
  agree (triangular_matrix_matrix_right_solve ty A t d B X)
    (for_range 0 (ext0 X) (fun i => triangular_matrix_vector_solve ty' At (SpecAgree.flip t) d (row B i) (row X i))) m.
Proof. exact (@trsm_rows). Qed.
Print Assumptions C93_trsm_rows.

Example C93_transposed_case :
  let A : mat F64 := row_major 0 2 2 in let B : mat F64 := row_major 4 2 2 in let C : mat F64 := col_major 8 2 2 in
  let At : mat F64 := col_major 0 2 2 in let Bt : mat F64 := col_major 4 2 2 in let Ct : mat F64 := row_major 8 2 2 in
  agree (matrix_product A B C) (matrix_product Bt At Ct) n93 /\
  agree (symmetric_matrix_product_right B A Upper C) (symmetric_matrix_product_left A Upper Bt Ct) n93 /\
  agree (triangular_matrix_matrix_right_solve I32 A Lower Explicit B C) (triangular_matrix_matrix_left_solve U64 At Upper Explicit Bt Ct) n93 /\
  agree (triangular_matrix_matrix_right_solve I32 A Lower Explicit B C)
    (for_range 0 2 (fun i => triangular_matrix_vector_solve U64 At Upper Explicit (row B i) (row C i))) n93.
Proof.
  intros A B C At Bt Ct. pose proof (C93_ieee_commutes 53 1024 prec53 emax1024) as K.
  assert (fits I32 2) as F1 by (split; vm_compute; discriminate). assert (fits U64 2) as F2 by (split; vm_compute; discriminate).
  repeat match goal with |- _ /\ _ => split end.
  - apply (C93_gemm_transposed F64 true true true n93 A B C At Bt Ct a93 b93); first [exact K | exact I | concrete].
  - apply (C93_symm_transposed F64 true true n93 B A Upper C Bt Ct a93 b93); first [exact K | exact I | concrete].
  - apply (C93_trsm_transposed F64 true true true I32 U64 n93 A Lower Explicit B C At Bt Ct a93 b93);
      first [exact K | exact I | exact (fun _ => F1) | exact F2 | discriminate | concrete].
  - apply (C93_trsm_rows F64 true I32 U64 n93 A Lower Explicit B C At a93 b93);
      first [exact K | exact I | exact (fun _ => F1) | exact F2 | discriminate | concrete].
Qed.

(** ** Norms, in any arithmetic of magnitudes and from every memory *)
Theorem C93_norms_transposed : forall (O : ops) (F : rops) (M : mags O F) fixp (A At : mat O) (init : F), transposed fixp A = Some At -> layout_ok (mlay A) (ext0 A) (ext1 A) ->
  same_effect (matrix_one_norm M At init) (matrix_inf_norm M A init) /\
  same_effect (matrix_inf_norm M At init) (matrix_one_norm M A init).
Proof. exact (@norms_trans). Qed.
Print Assumptions C93_norms_transposed.

(** Rows and columns that have at least one element, in a matrix that is not 1 x 1. *)
Theorem C93_inf_norm_rows : forall (O : ops) (F : rops) (M : mags O F) (A : mat O) (init : F), arithmetic M = true -> ext1 A <> 0 -> ~ (ext0 A = 1 /\ ext1 A = 1) ->
  same_effect (matrix_inf_norm M A init)
    (fold_range 0 (ext0 A) (fun i r => bind (vector_abs_sum M (row A i) init) (fun s => Ret (if rltb s r then r else s))) init).
Proof. exact (@inf_norm_rows). Qed.
Print Assumptions C93_inf_norm_rows.

Theorem C93_one_norm_columns : forall (O : ops) (F : rops) (M : mags O F) (A : mat O) (init : F), arithmetic M = true -> ext0 A <> 0 -> ~ (ext0 A = 1 /\ ext1 A = 1) ->
  same_effect (matrix_one_norm M A init)
    (fold_range 0 (ext1 A) (fun j r => bind (vector_abs_sum M (col A j) init) (fun s => Ret (if rltb s r then r else s))) init).
Proof. exact (@one_norm_cols). Qed.
Print Assumptions C93_one_norm_columns.

Example C93_norms_case :
  let A : mat F64 := row_major 0 2 2 in let At : mat F64 := col_major 0 2 2 in
  same_effect (matrix_one_norm dmag At (fl 0 0)) (matrix_inf_norm dmag A (fl 0 0)) /\
  same_effect (matrix_inf_norm dmag A (fl 0 0))
    (fold_range 0 2 (fun i r => bind (vector_abs_sum dmag (row A i) (fl 0 0)) (fun s => Ret (if rltb s r then r else s))) (fl 0 0)) /\
  same_effect (matrix_one_norm dmag A (fl 0 0))
    (fold_range 0 2 (fun j r => bind (vector_abs_sum dmag (col A j) (fl 0 0)) (fun s => Ret (if rltb s r then r else s))) (fl 0 0)).
Proof.
  intros A At. split; [|split].
  - apply (C93_norms_transposed F64 R64 dmag true A At (fl 0 0)); [reflexivity|exact I].
  - apply (C93_inf_norm_rows F64 R64 dmag A (fl 0 0)); [reflexivity|simpl; lia|simpl; lia].
  - apply (C93_one_norm_columns F64 R64 dmag A (fl 0 0)); [reflexivity|simpl; lia|simpl; lia].
Qed.

